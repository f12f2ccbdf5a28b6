(** The reduction of the security of the scheme to the decisional bilinear Diffie-Hellman problem (C111). *)
From Coq Require Import String NArith ZArith Bool Lia Permutation Field_theory Field Strings.Byte List.
From Verif Require Import Prelude Field LinAlg Msp Spec MspProofs Gauss GaussProofs Bilinear Scheme Codec SchemeCodec Policy Engine SchemeSpec SchemeProofs SchemeTheorems
  CollusionSpec LuckSpec GameSpec ReductionSpec Zp ExpModel PropertiesScheme PropertiesCollusion PropertiesDelegation PropertiesLuck PropertiesCodec PropertiesEngine.
Import ListNotations.

(** ** Sums *)
Lemma total_ext {A} (l : list A) f g : (forall x, In x l -> f x = g x) -> total l f = total l g.
Proof. intros H. unfold total. f_equal. apply map_ext_in. exact H. Qed.
Lemma total_cons {A} (x : A) l f : total (x :: l) f = (f x + total l f)%nat.
Proof. reflexivity. Qed.
Lemma total_app {A} (l1 l2 : list A) f : total (l1 ++ l2) f = (total l1 f + total l2 f)%nat.
Proof. induction l1 as [|x l1 IH]; [reflexivity|]. cbn [app]. rewrite !total_cons, IH. lia. Qed.
Lemma total_map {A C} (h : A -> C) l f : total (map h l) f = total l (fun x => f (h x)).
Proof. unfold total. rewrite map_map. reflexivity. Qed.
Lemma total_flat {A C} (h : A -> list C) l f : total (flat_map h l) f = total l (fun x => total (h x) f).
Proof. induction l as [|x l IH]; [reflexivity|]. cbn [flat_map]. rewrite total_app, total_cons, IH. reflexivity. Qed.
Lemma total_add {A} (l : list A) f g : total l (fun x => f x + g x)%nat = (total l f + total l g)%nat.
Proof. induction l as [|x l IH]; [reflexivity|]. rewrite !total_cons, IH. lia. Qed.
Lemma total_mul {A} (l : list A) k f : total l (fun x => k * f x)%nat = (k * total l f)%nat.
Proof. induction l as [|x l IH]; [unfold total; cbn; lia|]. rewrite !total_cons, IH. lia. Qed.
Lemma total_const {A} (l : list A) k : total l (fun _ => k) = (length l * k)%nat.
Proof. induction l as [|x l IH]; [reflexivity|]. rewrite total_cons, IH. cbn [length]. lia. Qed.
Lemma total_swap {A C} (l : list A) (l' : list C) f : total l (fun x => total l' (fun y => f x y)) = total l' (fun y => total l (fun x => f x y)).
Proof.
  induction l as [|x l IH]; [change (0%nat = total l' (fun _ => 0%nat)); rewrite total_const; lia|].
  rewrite total_cons, IH, <- total_add. reflexivity.
Qed.
Lemma total_perm {A} (l l' : list A) f : Permutation l l' -> total l f = total l' f.
Proof. induction 1; rewrite ?total_cons; lia. Qed.
Lemma total_prod {A C} (l : list A) (l' : list C) f : total (list_prod l l') f = total l (fun x => total l' (fun y => f (x, y))).
Proof. induction l as [|x l IH]; [reflexivity|]. cbn [list_prod]. rewrite total_app, total_map, total_cons, IH. reflexivity. Qed.

Lemma total_tuples_S {A} (l : list A) n f : total (tuples l (S n)) f = total l (fun x => total (tuples l n) (fun u => f (x :: u))).
Proof. cbn [tuples]. rewrite total_flat. apply total_ext. intros x _. apply total_map. Qed.
Lemma total_tuples_app {A} (l : list A) j : forall n f, total (tuples l (j + n)) f = total (tuples l j) (fun u1 => total (tuples l n) (fun u2 => f (u1 ++ u2))).
Proof.
  induction j as [|j IH]; intros n f; [cbn [tuples]; rewrite total_cons; unfold total at 3; cbn [map list_sum fold_right]; rewrite Nat.add_0_r; reflexivity|].
  change (S j + n)%nat with (S (j + n)). rewrite !total_tuples_S. apply total_ext. intros x _. rewrite IH. reflexivity.
Qed.
Lemma tuples_length {A} (l : list A) n u : In u (tuples l n) -> length u = n.
Proof.
  revert u. induction n as [|n IH]; intros u; cbn [tuples]; [intros [<-|[]]; reflexivity|]. intros H. apply in_flat_map in H as (x & _ & H). apply in_map_iff in H as (v & <- & Hv).
  cbn [length]. f_equal. apply IH. exact Hv.
Qed.
(** applying one-to-one functions to the elements *)
Definition each {A} (hs : list (A -> A)) (u : list A) : list A := map (fun p => fst p (snd p)) (combine hs u).
Lemma each_length {A} (hs : list (A -> A)) u : length u = length hs -> length (each hs u) = length hs.
Proof. intros H. unfold each. rewrite map_length, combine_length. lia. Qed.
Lemma total_each {A} (l : list A) hs f : Forall (fun h => Permutation (map h l) l) hs ->
  total (tuples l (length hs)) (fun u => f (each hs u)) = total (tuples l (length hs)) f.
Proof.
  intros H. revert f. induction H as [|h hs Hh _ IH]; intros f; [reflexivity|]. cbn [length]. rewrite !total_tuples_S.
  transitivity (total l (fun x => total (tuples l (length hs)) (fun u => f (h x :: u)))).
  - apply total_ext. intros x _. apply (IH (fun u => f (h x :: u))).
  - rewrite <- (total_map h l (fun y => total (tuples l (length hs)) (fun u => f (y :: u)))). apply total_perm. exact Hh.
Qed.
Lemma onto_perm {A} (l : list A) h : NoDup l -> (forall x, In x l) -> (forall x y, h x = h y -> x = y) -> Permutation (map h l) l.
Proof.
  intros Hn Ha Hi. apply NoDup_Permutation_bis; [apply FinFun.Injective_map_NoDup; [exact Hi|exact Hn]|rewrite map_length; lia|intros x _; apply Ha].
Qed.

Section Reduction.
Variable B : BilinearMap.
Variable BL : BilinearLaws B.
Local Notation K := (bm_K B).
Local Notation KL := (bl_field B BL).

Declare Scope fld.
Local Notation "0" := (@f0 K) : fld.
Local Notation "1" := (@f1 K) : fld.
Local Infix "+" := (@fadd K) : fld.
Local Infix "*" := (@fmul K) : fld.
Local Infix "-" := (@fsub K) : fld.
Local Notation "- x" := (@fneg K x) : fld.
Local Open Scope fld.
Add Field KF27 : (fl_field K (bl_field B BL)).

Local Notation g3 := (g3_gen_exp B).
Local Notation g2 := (g2_gen_exp B).
Local Notation gt := (gt_gen_exp B).
Local Notation to1 := (g3_to_g1 B).

Variable P : platform.
Variable size : nat.
Variable gam : list N.

Lemma inside_in x : inside gam x = true <-> In x gam.
Proof. unfold inside. rewrite existsb_exists. split; [intros (y & Hy & E); apply N.eqb_eq in E; subst; exact Hy|intros H; exists x; split; [exact H|apply N.eqb_refl]]. Qed.

(** ** The orthogonal vector *)
Lemma comb_seq (w : list K) : forall (F : nat -> list K) c j, length w = c ->
  combination (combine w (map F (seq 0 c))) j = suml (fun i => vec w i * nth j (F i) 0) (seq 0 c).
Proof using BL.
  induction w as [|x w IH]; intros F c j <-; [reflexivity|]. cbn [length]. rewrite <- cons_seq. cbn [map combine]. rewrite <- seq_shift, map_map.
  rewrite suml_cons, suml_map. unfold combination in *. cbn [fold_right fst snd]. rewrite (IH (fun i => F (S i)) (length w) j eq_refl). reflexivity.
Qed.
Definition marked (m : msp Z) : list (list Z) := map snd (filter (fun p => inside gam (fst p)) (combine (row_to_attr m) (matrix m))).
Lemma marked_in m row : In row (marked m) <-> exists x, In (x, row) (labelled m) /\ In x gam.
Proof.
  unfold marked. rewrite in_map_iff. split.
  - intros ([x row'] & E & H). cbn in E. subst row'. apply filter_In in H as [H Hx]. exists x. split; [exact H|]. apply inside_in. exact Hx.
  - intros (x & H & Hx). exists (x, row). split; [reflexivity|]. apply filter_In. split; [exact H|]. apply inside_in. exact Hx.
Qed.
Lemma columns_entry f m (w : list K) j : msp_of K f m -> length w = nb_col m -> (j < length (marked m))%nat ->
  combination (combine w (columns gam m)) j = dotZ K (nth j (marked m) []) (vec w) + suml (vec w) (seq 0 (nb_col m)).
Proof using BL.
  intros M L Hj. unfold columns. fold (marked m). rewrite comb_seq by exact L. unfold dotZ. rewrite dot_sum by exact KL. rewrite map_length.
  assert (Hin : In (nth j (marked m) []) (marked m)) by (apply nth_In; exact Hj). apply marked_in in Hin as (x & Hin & _).
  apply in_combine_r in Hin. rewrite (mo_width K f m M _ Hin), <- suml_add by exact KL. apply suml_ext. intros i _.
  rewrite app_nth1 by (rewrite map_length; exact Hj).
  rewrite (nth_indep _ 0 ((fun row => of_i32 (nth i row 0%Z) + 1) [])) by (rewrite map_length; exact Hj). rewrite (map_nth (fun row => of_i32 (nth i row 0%Z) + 1)).
  assert (E : nth i (map of_Z (nth j (marked m) [])) 0 = of_i32 (nth i (nth j (marked m) []) 0%Z)).
  { transitivity (@of_Z K (nth i (nth j (marked m) []) 0%Z)).
    - rewrite <- (map_nth (@of_Z K)). reflexivity.
    - symmetry. apply (fl_i32 K KL). assert (R : (-1 <= nth i (nth j (marked m) []) 0 <= 2)%Z).
      { destruct (Nat.lt_ge_cases i (length (nth j (marked m) []))) as [Hi|Hi]; [apply (mo_entries K f m M _ _ Hin), nth_In; exact Hi|rewrite nth_overflow by exact Hi; lia]. }
      unfold i32_range, i32_min, i32_max. lia. }
  rewrite E. ring.
Qed.
Lemma columns_last m (w : list K) : length w = nb_col m -> combination (combine w (columns gam m)) (length (marked m)) = suml (vec w) (seq 0 (nb_col m)).
Proof using BL.
  intros L. unfold columns. fold (marked m). rewrite comb_seq by exact L. apply suml_ext. intros i _. rewrite app_nth2, map_length, Nat.sub_diag by (rewrite map_length; lia). cbn [nth]. ring.
Qed.
Lemma columns_ones f m (w : list K) : msp_of K f m -> length w = nb_col m ->
  (gives_ones w (columns gam m) (S (length (marked m))) <-> suml (vec w) (seq 0 (nb_col m)) = 1 /\ forall row, In row (marked m) -> dotZ K row (vec w) = 0).
Proof using BL.
  intros M L. split.
  - intros H. assert (H1 : suml (vec w) (seq 0 (nb_col m)) = 1) by (rewrite <- (columns_last m w L); apply H; lia). split; [exact H1|]. intros row Hr.
    apply (In_nth _ _ []) in Hr as (j & Hj & <-). specialize (H j ltac:(lia)). rewrite (columns_entry f m w j M L Hj), H1 in H.
    assert (E : forall x, x + 1 = 1 -> x = 0) by (intros x Hx; transitivity (x + 1 - 1); [ring|rewrite Hx; ring]). apply E. exact H.
  - intros [H1 H0] j Hj. destruct (Nat.eq_dec j (length (marked m))) as [->|D]; [rewrite columns_last; assumption|]. rewrite (columns_entry f m w j M L) by lia. rewrite H1, H0 by (apply nth_In; lia). ring.
Qed.
Lemma orthogonal_ok f m : msp_of K f m -> ~ holds (fun a => In a gam) f ->
  length (orthogonal (B := B) gam m) = nb_col m /\ suml (vec (orthogonal gam m)) (seq 0 (nb_col m)) = 1 /\
  forall x row, In (x, row) (labelled m) -> In x gam -> dotZ K row (vec (orthogonal gam m)) = 0.
Proof using BL.
  intros M Hf. assert (Lc : length (columns (B := B) gam m) = nb_col m) by (unfold columns; rewrite map_length, seq_length; reflexivity).
  pose proof (mo_cols K f m M) as Ec.
  destruct (C04_span_solver K KL (columns gam m) (S (length (marked m)))) as [(w & E & Lw & H)|[_ H]].
  - intros E. rewrite E, Ec in Lc. discriminate.
  - lia.
  - intros r Hr. unfold columns in Hr. apply in_map_iff in Hr as (j & <- & _). fold (marked m). rewrite app_length, map_length. cbn [length]. lia.
  - rewrite Lc in Lw. unfold orthogonal. rewrite E. split; [exact Lw|]. apply (columns_ones f m w M Lw) in H as [H1 H0]. split; [exact H1|].
    intros x row Hin Hx. apply H0. apply marked_in. exists x. split; assumption.
  - exfalso. destruct (mo_sep K f m M (fun a => In a gam)) as (u & Hu & H0); [intros a; destruct (in_dec N.eq_dec a gam); [left|right]; assumption|exact Hf|].
    assert (V : forall i, (i < nb_col m)%nat -> vec (map u (seq 0 (nb_col m))) i = u i).
    { intros i Hi. unfold vec. rewrite (nth_indep _ 0 (u 0%nat)) by (rewrite map_length, seq_length; exact Hi). rewrite map_nth, seq_nth by exact Hi. reflexivity. }
    assert (Ls : length (map u (seq 0 (nb_col m))) = nb_col m) by (rewrite map_length, seq_length; reflexivity).
    apply (H (map u (seq 0 (nb_col m)))); [rewrite Ls, Lc; reflexivity|]. apply (columns_ones f m _ M Ls). split.
    + rewrite <- Hu. apply suml_ext. intros i Hi. apply in_seq in Hi. apply V. lia.
    + intros row Hr. apply marked_in in Hr as (x & Hin & Hx). rewrite <- (H0 (x, row) Hin Hx). cbn [snd]. unfold dotZ. apply dot_ext. intros i Hi. rewrite map_length in Hi. apply V.
      rewrite <- (mo_width K f m M row); [exact Hi|]. apply in_combine_r in Hin. exact Hin.
Qed.

(** ** The master key *)
Section Secrets.
Variables a b c : K.
Hypothesis Hb : b <> 0.
Definition scale (i : nat) (x : K) : K := if inside gam (N.of_nat i) then x else b * x.
Definition scales (n : nat) : list (K -> K) := map scale (seq 0 n).
Lemma each_enum {A} (h : nat -> A -> A) (l : list A) : forall k, each (map h (seq k (length l))) l = map (fun p => h (fst p) (snd p)) (combine (seq k (length l)) l).
Proof using. clear. unfold each. induction l as [|x l IH]; intros k; [reflexivity|]. cbn [length seq map combine fst snd]. f_equal. apply IH. Qed.
Lemma each_nth {A} (h : nat -> A -> A) (l : list A) d i : (i < length l)%nat -> nth i (each (map h (seq 0 (length l))) l) d = h i (nth i l d).
Proof using.
  clear. intros Hi. unfold each. rewrite (nth_indep _ d ((fun p => fst p (snd p)) (h 0%nat, d))) by (rewrite map_length, combine_length, map_length, seq_length; lia).
  rewrite (map_nth (fun p => fst p (snd p))). rewrite combine_nth by (rewrite map_length, seq_length; reflexivity). cbn [fst snd].
  rewrite map_nth, seq_nth by exact Hi. reflexivity.
Qed.
Definition secrets (r : list K) : list K := each (scales (length r)) r.
Lemma secrets_length r : length (secrets r) = length r.
Proof using. unfold secrets. rewrite each_length; unfold scales; rewrite map_length, seq_length; reflexivity. Qed.
Lemma secret_nth r x : (N.to_nat x < length r)%nat -> tt B (secrets r) x = if inside gam x then nth (N.to_nat x) r 0 else b * nth (N.to_nat x) r 0.
Proof using. intros H. unfold tt, secrets, scales. rewrite each_nth by exact H. unfold scale. rewrite N2Nat.id. reflexivity. Qed.
Lemma scale_zero i x : scale i x = 0 <-> x = 0.
Proof using BL Hb.
  unfold scale. destruct (inside gam (N.of_nat i)); [tauto|]. split; [intros H; apply (fmul_zero K KL) in H as [H|H]; [contradiction|exact H]|intros ->; ring].
Qed.
Lemma secrets_nonzero r : (forall x, In x (secrets r) -> x <> 0) <-> (forall x, In x r -> x <> 0).
Proof using BL Hb.
  split; intros H x Hx.
  - apply (In_nth _ _ 0) in Hx as (i & Hi & <-). intros E. apply (H (nth i (secrets r) 0)); [apply nth_In; rewrite secrets_length; exact Hi|].
    unfold secrets, scales. rewrite each_nth by exact Hi. apply scale_zero. exact E.
  - apply (In_nth _ _ 0) in Hx as (i & Hi & <-). rewrite secrets_length in Hi. unfold secrets, scales. rewrite each_nth by exact Hi. intros E. apply scale_zero in E. apply (H (nth i r 0)); [apply nth_In; exact Hi|exact E].
Qed.
Lemma made_pub_ok z r : made_pub gam (puzzle_of a b c z) r = pub_of B (secrets r) a.
Proof using BL Hb.
  unfold made_pub, pub_of. f_equal.
  - unfold secrets, scales. rewrite each_enum, map_map. apply map_ext. intros [i x]. cbn [fst snd puzzle_of pz_gb]. unfold scale. destruct (inside gam (N.of_nat i)); [reflexivity|apply (bl_g2_exp B BL)].
  - cbn [puzzle_of pz_ha pz_gb]. pose proof (bl_prod B BL [((a * finv b), b, 1)]) as E. cbn [map fst snd fold_right] in E. rewrite E. f_equal. field. exact Hb.
Qed.
Lemma made_del_ok z r : (forall x, In x r -> x <> 0) -> made_del gam (puzzle_of a b c z) r = mkDel (inv_of B (secrets r)).
Proof using BL Hb.
  intros Hr. unfold made_del, inv_of. f_equal. unfold secrets, scales. rewrite each_enum, map_map. apply map_ext_in. intros [i x] Hx. cbn [fst snd puzzle_of pz_h].
  apply in_combine_r, Hr in Hx. unfold scale. destruct (inside gam (N.of_nat i)); [f_equal; field; exact Hx|]. rewrite (bl_g3_exp B BL). f_equal. field. split; assumption.
Qed.

(** ** Keys *)
Lemma share_entries cols draw y (u : list K) : sharing_vector cols draw y = Ok u -> forall i, (S i < cols)%nat -> vec u i = draw i.
Proof using.
  clear. unfold sharing_vector. destruct cols as [|[|n]]; [discriminate|intros _ i Hi; lia|]. intros E i Hi. assert (E' : u = draws draw 0 (S n) ++ [y - fold_left fadd (draws draw 0 (S n)) 0]) by congruence. subst u.
  unfold vec. rewrite app_nth1 by (unfold draws; rewrite map_length, seq_length; lia). unfold draws. rewrite (nth_indep _ 0 (draw 0%nat)) by (rewrite map_length, seq_length; lia).
  rewrite map_nth, seq_nth by lia. reflexivity.
Qed.
Lemma zero_share cols (draw : nat -> K) : exists e, zero_sharing_vector cols draw = e /\ match e with Ok u => sharing_vector cols draw 0 = Ok u | _ => True end.
Proof using BL.
  exists (zero_sharing_vector cols draw). split; [reflexivity|]. unfold zero_sharing_vector, sharing_vector. destruct cols as [|[|n]]; [exact I|reflexivity|]. do 3 f_equal. ring.
Qed.
Lemma prefix_share cols (u1 u2 : list K) y : cols = S (length u1) -> sharing_vector cols (values (u1 ++ u2)) y = sharing_vector cols (values u1) y.
Proof using.
  clear. intros ->. unfold sharing_vector. destruct (length u1) as [|n] eqn:L; [reflexivity|]. rewrite <- L.
  assert (E : draws (values (u1 ++ u2)) 0 (length u1) = draws (values u1) 0 (length u1)).
  { unfold draws, values. apply map_ext_in. intros i Hi. apply in_seq in Hi. apply app_nth1. lia. }
  rewrite E. reflexivity.
Qed.
Lemma prefix_zero cols (u1 u2 : list K) : cols = S (length u1) -> zero_sharing_vector cols (values (u1 ++ u2)) = zero_sharing_vector cols (values u1).
Proof using.
  clear. intros ->. unfold zero_sharing_vector. destruct (length u1) as [|n] eqn:L; [reflexivity|]. rewrite <- L.
  assert (E : draws (values (u1 ++ u2)) 0 (length u1) = draws (values u1) 0 (length u1)).
  { unfold draws, values. apply map_ext_in. intros i Hi. apply in_seq in Hi. apply app_nth1. lia. }
  rewrite E. reflexivity.
Qed.
Definition real_key (t : list K) (f : node) (u : list K) : outcome (decryption_key B) :=
  let* m := to_msp P f in key_generation m (mkPriv t a) (values u).
Lemma real_prefix t f u1 u2 : length u1 = count_and f -> real_key t f (u1 ++ u2) = real_key t f u1.
Proof using BL.
  intros L. unfold real_key. destruct (to_msp P f) as [m| |] eqn:E; [|reflexivity|reflexivity]. cbn [bind]. pose proof (to_msp_msp_of K KL P f m E) as M.
  unfold key_generation. cbn [priv_y]. rewrite prefix_share; [reflexivity|]. rewrite (mo_cols K f m M), L. reflexivity.
Qed.
Lemma made_prefix (pz : puzzle B) r f u1 u2 : length u1 = count_and f -> made_key P gam pz r (u1 ++ u2) f = made_key P gam pz r u1 f.
Proof using BL.
  intros L. unfold made_key. destruct (to_msp P f) as [m| |] eqn:E; [|reflexivity|reflexivity]. cbn [bind]. pose proof (to_msp_msp_of K KL P f m E) as M.
  rewrite prefix_zero; [reflexivity|]. rewrite (mo_cols K f m M), L. reflexivity.
Qed.

(** how the values drawn for a key are moved *)
Definition moves (f : node) : list (K -> K) :=
  match to_msp P f with Ok m => map (fun i x => a * vec (orthogonal gam m) i + x) (seq 0 (count_and f)) | _ => repeat (fun x => x) (count_and f) end.
Lemma moves_length f : length (moves f) = count_and f.
Proof using. unfold moves. destruct (to_msp P f); [rewrite map_length, seq_length; reflexivity|apply repeat_length|apply repeat_length]. Qed.

Lemma made_key_ok z r f v : (forall x, In x r -> x <> 0) -> ~ holds (fun x => In x gam) f -> length v = count_and f ->
  made_key P gam (puzzle_of a b c z) r v f = real_key (secrets r) f (each (moves f) v).
Proof using BL Hb.
  intros Hr Hf Lv. unfold made_key, real_key, moves. destruct (to_msp P f) as [m| |] eqn:E; [|reflexivity|reflexivity]. cbn [bind].
  pose proof (to_msp_msp_of K KL P f m E) as M. pose proof (mo_cols K f m M) as Ec.
  destruct (orthogonal_ok f m M Hf) as (Lw & Sw & Ow). set (w := orthogonal gam m) in *.
  rewrite (key_generation_eq B f m) by exact M. set (d := values (each (map (fun i x => a * vec w i + x) (seq 0 (count_and f))) v)).
  destruct (zero_share (nb_col m) (values v)) as (e & Ee & He). destruct (zero_sharing_vector_total B (nb_col m) (values v)) as (V & EV); [lia|]. rewrite EV in *. subst e. cbn [bind].
  destruct (sharing_vector_total B (nb_col m) d a) as (U & EU); [lia|]. rewrite EU. cbn [bind].
  destruct (sharing_vector_inv B BL _ _ _ _ EU) as [LU SU]. destruct (sharing_vector_inv B BL _ _ _ _ He) as [LV SV].
  assert (Hlow : forall i, (i < count_and f)%nat -> vec U i = a * vec w i + vec V i).
  { intros i Hi. rewrite (share_entries _ _ _ _ EU) by lia. rewrite (share_entries _ _ _ _ He) by lia. unfold d, values. rewrite <- Lv in Hi |- *. rewrite each_nth by exact Hi. reflexivity. }
  assert (Hall : forall i, (i < nb_col m)%nat -> vec U i = a * vec w i + vec V i).
  { intros i Hi. destruct (Nat.eq_dec i (count_and f)) as [->|D]; [|apply Hlow; lia]. rewrite Ec in SU, Sw, SV.
    rewrite seq_S, suml_app in SU, Sw, SV by exact KL. cbn [plus] in *. rewrite suml_cons in SU, Sw, SV.
    assert (Q : suml (vec U) (seq 0 (count_and f)) = a * suml (vec w) (seq 0 (count_and f)) + suml (vec V) (seq 0 (count_and f))).
    { rewrite <- (suml_scal K KL), <- (suml_add K KL). apply suml_ext. intros j Hj. apply in_seq in Hj. apply Hlow. lia. }
    rewrite Q in SU. change (suml (vec U) []) with (@f0 K) in SU. change (suml (vec w) []) with (@f0 K) in Sw. change (suml (vec V) []) with (@f0 K) in SV.
    set (wl := suml (vec w) (seq 0 (count_and f))) in *. set (vl := suml (vec V) (seq 0 (count_and f))) in *.
    transitivity ((a * wl + vl + (vec U (count_and f) + 0)) - a * wl - vl); [ring|]. rewrite SU.
    replace (vec w (count_and f)) with (1 - wl) by (rewrite <- Sw; ring). replace (vec V (count_and f)) with (- vl) by (transitivity (0 - vl); [ring|rewrite <- SV; ring]). ring. }
  assert (Hdot : forall x row, In (x, row) (labelled m) -> prod_scal (B := B) of_i32 row U = a * prod_scal of_i32 row w + prod_scal of_i32 row V).
  { intros x row Hin. assert (Hm : In row (matrix m)) by (apply in_combine_r in Hin; exact Hin). pose proof (mo_width K f m M row Hm) as Wr. pose proof (mo_entries K f m M row) as Er.
    rewrite !(prod_scal_dotZ B BL) by (try (intros y Hy; apply Er; assumption); congruence). unfold dotZ. rewrite <- (dot_scal K KL), <- (dot_add K KL). apply dot_ext.
    intros i Hi. rewrite map_length in Hi. apply Hall. lia. }
  assert (Q : mapM (fun p : N * list Z =>
      let '(x, row) := p in
      if N.leb (N.of_nat (length r)) x
      then Err (InternalOperation "Monotone Span Program is invalid: msp-row larger than private-key-t_i")
      else
        let rx := finv (nth (N.to_nat x) r 0) in
        let known := prod_scal of_i32 row V * rx in
        Ok (if inside gam x then g1_gen_exp B known
            else g3_mul B (g3_exp B (pz_ha (puzzle_of a b c z)) (prod_scal of_i32 row w * rx)) (g3_exp B (pz_h (puzzle_of a b c z)) known)))
    (combine (row_to_attr m) (matrix m)) = mapM (fun p => gen_one B (secrets r) U (fst p) (snd p)) (labelled m)).
  { apply mapM_ext. intros [x row] Hin. cbn [fst snd]. destruct (N.leb_spec (N.of_nat (length r)) x) as [Hle|Hlt].
    - unfold gen_one. rewrite secrets_length. destruct (N.leb_spec (N.of_nat (length r)) x); [reflexivity|lia].
    - assert (Hx : (N.to_nat x < length r)%nat) by lia. assert (Hrx : nth (N.to_nat x) r 0 <> 0) by (apply Hr, nth_In; exact Hx).
      assert (Ht : tt B (secrets r) x <> 0).
      { apply tt_nonzero; [exact (proj2 (secrets_nonzero r) Hr)|]. unfold in_range. rewrite secrets_length. exact Hx. }
      rewrite (gen_one_run B BL) by (try exact Ht; unfold in_range; rewrite secrets_length; exact Hx). f_equal.
      rewrite (Hdot x row Hin). rewrite (secret_nth r x Hx). cbn [puzzle_of pz_h pz_ha]. destruct (inside gam x) eqn:Ei.
      + apply inside_in in Ei. pose proof (Ow x row Hin Ei) as Z0. assert (Hm : In row (matrix m)) by (apply in_combine_r in Hin; exact Hin).
        rewrite <- (prod_scal_dotZ B BL) in Z0 by (try (intros y Hy; apply (mo_entries K f m M row); assumption); rewrite (mo_width K f m M row Hm); congruence).
        rewrite Z0, (bl_g1_gen B BL). replace ((a * 0 + prod_scal of_i32 row V) * finv (nth (N.to_nat x) r 0)) with (prod_scal of_i32 row V * finv (nth (N.to_nat x) r 0)) by ring. reflexivity.
      + rewrite !(bl_g3_exp B BL), (bl_g3_mul B BL).
        replace ((a * prod_scal of_i32 row w + prod_scal of_i32 row V) * finv (b * nth (N.to_nat x) r 0))
          with (a * finv b * (prod_scal of_i32 row w * finv (nth (N.to_nat x) r 0)) + finv b * (prod_scal of_i32 row V * finv (nth (N.to_nat x) r 0))) by (field; split; assumption). reflexivity. }
  cbv zeta in Q |- *. rewrite Q. reflexivity.
Qed.

(** ** Ciphertexts *)
Lemma made_text_ok z r msg : z = a * c -> made_text P gam (puzzle_of a b c z) r msg = encrypt P msg gam (pub_of B (secrets r) a) c.
Proof using BL.
  intros ->. unfold made_text, encrypt, pub_of. cbn [pub_t pub_y]. rewrite map_length, secrets_length. destruct (Nat.leb (length r) (length gam)); [reflexivity|]. cbv zeta.
  assert (E : mapM (fun x => let* rx := indexN r x in Ok (g2_exp B (pz_gc (puzzle_of a b c (a * c))) rx)) gam
    = mapM (fun i => let* t := indexN (map g2 (secrets r)) i in Ok (g2_exp B t c)) gam).
  { apply mapM_ext. intros x Hx. destruct (Nat.lt_ge_cases (N.to_nat x) (length r)) as [H|H].
    - rewrite (indexN_ok r x 0 H). rewrite (indexN_ok _ x (g2 0)) by (rewrite map_length, secrets_length; exact H). rewrite map_nth. cbn [bind puzzle_of pz_gc].
      change (nth (N.to_nat x) (secrets r) 0) with (tt B (secrets r) x). rewrite (secret_nth r x H). apply inside_in in Hx. rewrite Hx. rewrite !(bl_g2_exp B BL). do 2 f_equal. ring.
    - unfold indexN. rewrite map_length, secrets_length. destruct (N.ltb_spec x (N.of_nat (length r))); [lia|reflexivity]. }
  rewrite E, (bl_gt_exp B BL). reflexivity.
Qed.
Lemma made_text_masked z z' m m' r : m + z = m' + z' -> made_text P gam (puzzle_of a b c z) r (gt m) = made_text P gam (puzzle_of a b c z') r (gt m').
Proof using BL.
  intros H. unfold made_text. destruct (Nat.leb (length r) (length gam)); [reflexivity|]. cbn [puzzle_of pz_gc pz_z]. rewrite !(bl_gt_mul B BL), H. reflexivity.
Qed.

Lemma proper_formula fs e : proper P size fs e -> exists f, formula_of fs e = Some f.
Proof using. destruct e as [f|k f|k]; cbn; [eauto|eauto|]. intros (f & E & _). eauto. Qed.
Lemma same_after w w' z z' r p : forall n fs v, lawful P size gam n fs false p -> mimic P gam (puzzle_of a b c z) r w fs v p = mimic P gam (puzzle_of a b c z') r w' fs v p.
Proof using.
  induction p as [g|e next IH|e next IH|m0 m1 next IH]; intros n fs v L; [reflexivity| | |destruct L as [L _]; discriminate]; destruct L as (Hp & L); destruct (proper_formula _ _ Hp) as [f Hf]; specialize (L f Hf); cbn [mimic].
  - rewrite Hf. destruct L as (_ & _ & L). apply (IH _ (n - count_and f)%nat). apply L.
  - unfold formulas, needs. rewrite Hf. apply (IH (n - count_and f)%nat). apply L.
Qed.

Variable elems : list K.
Hypothesis Hnd : NoDup elems.
Hypothesis Hall : forall x : K, In x elems.
Lemma shift_perm (x : K) : Permutation (map (fadd x) elems) elems.
Proof using BL Hnd Hall. apply onto_perm; [exact Hnd|exact Hall|]. intros y z E. transitivity (x + y - x); [ring|]. rewrite E. ring. Qed.
Lemma moves_perm f : Forall (fun h => Permutation (map h elems) elems) (moves f).
Proof using BL Hnd Hall.
  apply Forall_forall. intros h Hh. unfold moves in Hh. destruct (to_msp P f); [apply in_map_iff in Hh as (i & <- & _); apply shift_perm|apply repeat_spec in Hh; subst h; rewrite map_id; reflexivity|apply repeat_spec in Hh; subst h; rewrite map_id; reflexivity].
Qed.
Lemma scales_perm n : Forall (fun h => Permutation (map h elems) elems) (scales n).
Proof using BL Hb Hnd Hall.
  apply Forall_forall. intros h Hh. apply in_map_iff in Hh as (i & <- & _). apply onto_perm; [exact Hnd|exact Hall|]. intros y z. unfold scale. destruct (inside gam (N.of_nat i)); [tauto|].
  intros E. apply (fmul_cancel K KL y z b Hb). transitivity (b * y); [ring|]. rewrite E. ring.
Qed.

(** the keys of others *)
Definition ready (mk : master_key B) (fs : list node) (uks : list (outcome (decryption_key B))) : Prop :=
  forall k f, nth_error fs k = Some f -> possible P size f -> exists uk, nth k uks (Err (InternalOperation "no such key")) = Ok uk /\ derived B P mk f uk.
Lemma ready_next t fs uks f u : length t = size -> (forall x, In x t -> x <> 0) -> ready (master_of B t a) fs uks ->
  ready (master_of B t a) (f :: fs) (real_key t f u :: uks).
Proof using BL.
  intros Lt Hz H [|k] f' E Hp; [|apply (H k f' E Hp)]. cbn in E. assert (f' = f) by congruence. subst f'. destruct Hp as [[m Em] Hl]. cbn [nth]. unfold real_key. rewrite Em. cbn [bind].
  destruct (key_generation_total B BL f m t a (values u) (to_msp_msp_of K KL P f m Em)) as [uk Hk].
  - intros x Hx. specialize (Hl x Hx). split; [unfold in_range; rewrite Lt; exact Hl|]. apply Hz. unfold tt. apply nth_In. rewrite Lt. exact Hl.
  - exists uk. split; [exact Hk|]. apply (de_gen B P _ f m (values u) uk Em). exact Hk.
Qed.
Lemma key_generation_first (m : msp Z) pr (d d' : nat -> K) : (forall i, (S i < nb_col m)%nat -> d i = d' i) -> key_generation m pr d = key_generation m pr d'.
Proof using.
  clear. intros H. unfold key_generation. replace (sharing_vector (nb_col m) d' (priv_y pr)) with (sharing_vector (nb_col m) d (priv_y pr)); [reflexivity|].
  destruct (nb_col m) as [|[|n]]; [reflexivity|reflexivity|]. cbn [sharing_vector].
  assert (E : draws d 0 (S n) = draws d' 0 (S n)) by (unfold draws; apply map_ext_in; intros i Hi; apply in_seq in Hi; apply H; lia). rewrite E. reflexivity.
Qed.
(** a key is a generated one with moved values *)
Lemma issue_moved t fs uks e f : length t = size -> (forall x, In x t -> x <> 0) -> ready (master_of B t a) fs uks -> proper P size fs e -> formula_of fs e = Some f ->
  exists hs, length hs = count_and f /\ Forall (fun h => Permutation (map h elems) elems) hs /\
    forall u1 u2, length u1 = count_and f -> issue P (master_of B t a) uks (values (u1 ++ u2)) e = real_key t f (each hs u1).
Proof using BL Hnd Hall.
  intros Lt Hz Hr Hp Hf.
  assert (G : generate_master_key size (values (t ++ [a])) = Ok (master_of B t a)).
  { rewrite (generate_master_key_ok B BL); [destruct (values_app B t a) as [E1 E2]; rewrite <- Lt, E1, E2; reflexivity|]. intros i Hi. unfold values. rewrite app_nth1 by lia. apply Hz, nth_In. lia. }
  assert (Moved : forall m (delta : nat -> K), to_msp P f = Ok m -> let hs := map (fun i x => delta i + x) (seq 0 (count_and f)) in
    length hs = count_and f /\ Forall (fun h => Permutation (map h elems) elems) hs /\
    forall u1 u2, length u1 = count_and f -> key_generation m (priv_key (master_of B t a)) (fun i => values (u1 ++ u2) i + delta i) = real_key t f (each hs u1)).
  { intros m delta Em hs. split; [unfold hs; rewrite map_length, seq_length; reflexivity|]. split; [apply Forall_forall; intros h Hh; apply in_map_iff in Hh as (i & <- & _); apply shift_perm|].
    intros u1 u2 L1. unfold real_key. rewrite Em. cbn [bind priv_key master_of]. apply key_generation_first. intros i Hi.
    rewrite (mo_cols K f m (to_msp_msp_of K KL P f m Em)) in Hi. unfold values. rewrite app_nth1 by lia. unfold hs. rewrite <- L1. rewrite each_nth by lia. ring. }
  destruct e as [f'|k f'|k]; cbn in Hf.
  - assert (f' = f) by congruence. subst f'. exists (repeat (fun x => x) (count_and f)). split; [apply repeat_length|]. split; [apply Forall_forall; intros h Hh; apply repeat_spec in Hh; subst h; rewrite map_id; reflexivity|].
    intros u1 u2 L1. replace (each (repeat (fun x : K => x) (count_and f)) u1) with u1 by (rewrite <- L1; clear; induction u1 as [|x u1 IH]; [reflexivity|cbn; f_equal; exact IH]).
    rewrite <- (real_prefix t f u1 u2 L1). reflexivity.
  - assert (f' = f) by congruence. subst f'. destruct Hp as (f0 & E0 & Hp0 & Hn & m & Em). destruct (Hr k f0 E0 Hp0) as (uk & Ek & Hd).
    destruct (C75_delegated_as_fresh B BL P size _ _ f0 uk f m G Hd Hn Em) as [delta Hdel]. destruct (Moved m delta Em) as (M1 & M2 & M3).
    eexists. split; [exact M1|]. split; [exact M2|]. intros u1 u2 L1. rewrite <- (M3 u1 u2 L1). destruct (Hdel (values (u1 ++ u2))) as (uk' & E1 & E2). unfold issue. rewrite Ek, Em. cbn [bind]. rewrite E1. symmetry. exact E2.
  - destruct Hp as (f0 & E0 & Hp0). assert (f0 = f) by congruence. subst f0. destruct (Hr k f E0 Hp0) as (uk & Ek & Hd). destruct Hp0 as [[m Em] _].
    destruct (C75_randomised_as_fresh B BL P size _ _ f m uk G Hd Em) as [delta Hdel]. destruct (Moved m delta Em) as (M1 & M2 & M3).
    eexists. split; [exact M1|]. split; [exact M2|]. intros u1 u2 L1. rewrite <- (M3 u1 u2 L1). destruct (Hdel (values (u1 ++ u2))) as (uk' & E1 & E2). unfold issue. rewrite Ek. cbn [bind]. rewrite E1. symmetry. exact E2.
Qed.

(** on genuine puzzles the attacker is given what the experiment gives it *)
Lemma mimic_play r w p : length r = size -> (forall x, In x r -> x <> 0) -> forall n fs uks o, ready (master_of B (secrets r) a) fs uks -> lawful P size gam n fs o p ->
  total (tuples elems n) (fun v => bit (mimic P gam (puzzle_of a b c (a * c)) r w fs v p)) =
  total (tuples elems n) (fun u => bit (play P gam (master_of B (secrets r) a) w c fs uks u p)).
Proof using BL Hb Hnd Hall.
  intros Lr Hr. set (mk := master_of B (secrets r) a).
  assert (Ls : length (secrets r) = size) by (rewrite secrets_length; exact Lr). pose proof (proj2 (secrets_nonzero r) Hr) as Hs.
  induction p as [g|e next IH|e next IH|m0 m1 next IH]; intros n fs uks o Hk L.
  - reflexivity.
  - destruct L as (Hp & L). destruct (proper_formula fs e Hp) as [f Hf]. destruct (L f Hf) as (Hh & Hn & L'). clear L.
    destruct (issue_moved (secrets r) fs uks e f Ls Hs Hk Hp Hf) as (hs & Lh & Ph & Hi). change (master_of B (secrets r) a) with mk in Hi.
    replace n with (count_and f + (n - count_and f))%nat by lia. rewrite !total_tuples_app. cbn [mimic play]. unfold formulas, needs. rewrite Hf.
    set (k := (n - count_and f)%nat) in *.
    set (F := fun u1 => total (tuples elems k) (fun v2 => bit (mimic P gam (puzzle_of a b c (a * c)) r w (f :: fs) v2 (next (real_key (secrets r) f u1))))).
    transitivity (total (tuples elems (length (moves f))) (fun v1 => F (each (moves f) v1))).
    + rewrite moves_length. apply total_ext. intros v1 H1. apply tuples_length in H1. unfold F. apply total_ext. intros v2 _. rewrite (made_prefix _ r f v1 v2 H1), (made_key_ok _ r f v1 Hr Hh H1).
      rewrite skipn_app, H1, skipn_all2, Nat.sub_diag by lia. reflexivity.
    + rewrite (total_each elems (moves f) F (moves_perm f)), moves_length. rewrite <- Lh at 1. rewrite <- (total_each elems hs F Ph), Lh.
      apply total_ext. intros u1 H1. apply tuples_length in H1. unfold F.
      rewrite (IH _ k (f :: fs) (real_key (secrets r) f (each hs u1) :: uks) o) by (try apply L'; apply ready_next; assumption). apply total_ext. intros u2 _.
      rewrite skipn_app, H1, skipn_all2, Nat.sub_diag by lia. cbn [app skipn]. rewrite (Hi u1 u2 H1). reflexivity.
  - destruct L as (Hp & L). destruct (proper_formula fs e Hp) as [f Hf]. destruct (L f Hf) as (Hn & L'). clear L.
    destruct (issue_moved (secrets r) fs uks e f Ls Hs Hk Hp Hf) as (hs & Lh & Ph & Hi). change (master_of B (secrets r) a) with mk in Hi.
    replace n with (count_and f + (n - count_and f))%nat by lia. rewrite !total_tuples_app. cbn [mimic play]. unfold formulas, needs. rewrite Hf.
    set (k := (n - count_and f)%nat) in *. apply total_ext. intros u1 H1. apply tuples_length in H1.
    transitivity (total (tuples elems k) (fun v2 => bit (mimic P gam (puzzle_of a b c (a * c)) r w (f :: fs) v2 next))).
    + apply total_ext. intros v2 _. rewrite skipn_app, H1, skipn_all2, Nat.sub_diag by lia. reflexivity.
    + rewrite (IH k (f :: fs) (real_key (secrets r) f (each hs u1) :: uks) o) by (try apply L'; apply ready_next; assumption). apply total_ext. intros u2 _.
      rewrite skipn_app, H1, skipn_all2, Nat.sub_diag by lia. cbn [app skipn]. rewrite (Hi u1 u2 H1). reflexivity.
  - destruct L as (_ & L). cbn [mimic play]. rewrite made_text_ok by reflexivity. apply (IH _ n fs uks false Hk). apply L.
Qed.

(** on random puzzles the answer does not depend on the message *)
Lemma mimic_blind r p : forall n fs o, lawful P size gam n fs o p ->
  total (tuples elems n) (fun v => total elems (fun z => bit (mimic P gam (puzzle_of a b c z) r true fs v p))) =
  total (tuples elems n) (fun v => total elems (fun z => bit (mimic P gam (puzzle_of a b c z) r false fs v p))).
Proof using BL Hnd Hall.
  induction p as [g|e next IH|e next IH|m0 m1 next IH]; intros n fs o L.
  - reflexivity.
  - destruct L as (Hp & L). destruct (proper_formula fs e Hp) as [f Hf]. destruct (L f Hf) as (_ & Hn & L'). clear L. cbn [mimic]. rewrite Hf.
    replace n with (count_and f + (n - count_and f))%nat by lia. rewrite !total_tuples_app. set (k := (n - count_and f)%nat) in *.
    apply total_ext. intros v1 H1. apply tuples_length in H1.
    assert (E : forall w, total (tuples elems k) (fun v2 => total elems (fun z => bit (mimic P gam (puzzle_of a b c z) r w (f :: fs) (skipn (count_and f) (v1 ++ v2)) (next (made_key P gam (puzzle_of a b c z) r (v1 ++ v2) f))))) =
      total (tuples elems k) (fun v2 => total elems (fun z => bit (mimic P gam (puzzle_of a b c z) r w (f :: fs) v2 (next (made_key P gam (puzzle_of a b c 0) r v1 f)))))).
    { intros w. apply total_ext. intros v2 _. apply total_ext. intros z _. rewrite (made_prefix _ r f v1 v2 H1). rewrite skipn_app, H1, skipn_all2, Nat.sub_diag by lia. reflexivity. }
    rewrite !E. apply (IH _ k (f :: fs) o). apply L'.
  - destruct L as (Hp & L). destruct (proper_formula fs e Hp) as [f Hf]. destruct (L f Hf) as (Hn & L'). clear L. cbn [mimic]. unfold formulas, needs. rewrite Hf.
    replace n with (count_and f + (n - count_and f))%nat by lia. rewrite !total_tuples_app. set (k := (n - count_and f)%nat) in *.
    apply total_ext. intros v1 H1. apply tuples_length in H1.
    assert (E : forall w, total (tuples elems k) (fun v2 => total elems (fun z => bit (mimic P gam (puzzle_of a b c z) r w (f :: fs) (skipn (count_and f) (v1 ++ v2)) next))) =
      total (tuples elems k) (fun v2 => total elems (fun z => bit (mimic P gam (puzzle_of a b c z) r w (f :: fs) v2 next)))).
    { intros w. apply total_ext. intros v2 _. apply total_ext. intros z _. rewrite skipn_app, H1, skipn_all2, Nat.sub_diag by lia. reflexivity. }
    rewrite !E. apply (IH k (f :: fs) o). apply L'.
  - destruct L as (_ & L). apply total_ext. intros v _. cbn [mimic]. destruct (bl_gt_surj B BL m0) as [x0 ->]. destruct (bl_gt_surj B BL m1) as [x1 ->].
    rewrite <- (total_perm _ _ _ (shift_perm (x0 - x1))). rewrite total_map. apply total_ext. intros z _.
    rewrite (made_text_masked (x0 - x1 + z) z x1 x0) by ring. f_equal. apply (same_after _ _ _ _ _ _ n). apply L.
Qed.
End Secrets.

Variable elems : list K.
Hypothesis Hnd : NoDup elems.
Hypothesis Hall : forall x : K, In x elems.
Lemma nonzero_length : S (length (nonzero elems)) = length elems.
Proof using BL Hnd Hall.
  assert (G : forall l, NoDup l -> In 0 l -> S (length (nonzero l)) = length l).
  { clear Hnd Hall. intros l. induction l as [|x l IH]; intros Hn Hi; [destruct Hi|]. inversion Hn as [|? ? Hx Hn']; subst. unfold nonzero in *. cbn [filter].
    destruct (feqb x 0) eqn:E; cbn [negb length].
    - f_equal. apply (fl_eqb K KL) in E. subst x. clear -BL Hx. induction l as [|y l IH]; [reflexivity|]. cbn [filter]. replace (feqb y 0) with false; [|symmetry; apply (feqb_false K KL); intros ->; apply Hx; left; reflexivity].
      cbn [negb length]. f_equal. apply IH. intros H. apply Hx. right. exact H.
    - f_equal. apply IH; [exact Hn'|]. destruct Hi as [->|Hi]; [|exact Hi]. rewrite (feqb_refl K KL) in E. discriminate. }
  apply G; [exact Hnd|apply Hall].
Qed.
Lemma nonzero_in b : In b (nonzero elems) -> b <> 0.
Proof using BL. intros H. apply filter_In in H as [_ H]. apply negb_true_iff, (feqb_false K KL) in H. exact H. Qed.
Lemma zero_free r : existsb (feqb 0) r = false <-> forall x, In x r -> x <> 0.
Proof using BL.
  split.
  - intros H x Hx ->. assert (existsb (feqb 0) r = true) by (apply existsb_exists; exists 0; split; [exact Hx|apply (feqb_refl K KL)]). congruence.
  - intros H. destruct (existsb (feqb 0) r) eqn:E; [|reflexivity]. apply existsb_exists in E as (x & Hx & E). apply (fl_eqb K KL) in E. subst x. destruct (H 0 Hx eq_refl).
Qed.
Lemma experiment_zero start w t y u s : length t = size -> existsb (feqb 0) t = true -> experiment P size gam start w t y u s = false.
Proof using BL.
  intros Ht E. unfold experiment. destruct (generate_master_key size (values (t ++ [y]))) as [mk| |] eqn:G; [|reflexivity|reflexivity].
  destruct (master_values B BL size t y mk Ht G) as [_ Hz]. apply zero_free in Hz. congruence.
Qed.
Lemma experiment_ok start w t y u s : length t = size -> (forall x, In x t -> x <> 0) ->
  experiment P size gam start w t y u s = play P gam (master_of B t y) w s [] [] u (start (pub_of B t y) (mkDel (inv_of B t))).
Proof using BL.
  intros Ht Hz. unfold experiment. rewrite (generate_master_key_ok B BL).
  - destruct (values_app B t y) as [E1 E2]. rewrite <- Ht, E1, E2. reflexivity.
  - intros i Hi. unfold values. rewrite app_nth1 by lia. apply Hz, nth_In. lia.
Qed.

Section Attacker.
Context {R : Type}.
Variable start : R -> master_public_key B -> delegation_key B -> attacker B.
Variable coins : list R.
Variable n : nat.
Hypothesis Hlaw : forall x pub del, lawful P size gam n [] true (start x pub del).

Lemma genuine_count w : on_genuine elems (solver_coins size elems coins n) (solve P gam start w) =
  (length (nonzero elems) * answers_true P size gam start elems coins n w)%nat.
Proof using BL Hnd Hall Hlaw.
  unfold on_genuine, solver_coins, answers_true. rewrite total_prod, <- total_mul. apply total_ext. intros x _.
  rewrite (total_swap (list_prod _ _) (nonzero elems)), <- total_const. apply total_ext. intros b Hb. apply nonzero_in in Hb. rewrite total_prod.
  set (F := fun t => total elems (fun y => total elems (fun s => total (tuples elems n) (fun u => bit (experiment P size gam (start x) w t y u s))))).
  transitivity (total (tuples elems (length (scales b size))) (fun r => F (each (scales b size) r))).
  2:{ rewrite (total_each elems (scales b size) F); [unfold scales; rewrite map_length, seq_length; reflexivity|]. apply scales_perm; assumption. }
  unfold scales at 1. rewrite map_length, seq_length. apply total_ext. intros r Hr. apply tuples_length in Hr. unfold F.
  rewrite (total_swap (tuples elems n) elems). apply total_ext. intros a _. rewrite (total_swap (tuples elems n) elems). apply total_ext. intros c _.
  assert (Er : each (scales b size) r = secrets b r) by (unfold secrets; rewrite Hr; reflexivity). rewrite Er. unfold solve.
  destruct (existsb (feqb 0) r) eqn:Z.
  - apply total_ext. intros u _. rewrite experiment_zero; [reflexivity|rewrite secrets_length; exact Hr|].
    destruct (existsb (feqb 0) (secrets b r)) eqn:Z'; [reflexivity|]. pose proof (proj2 (zero_free r) (proj1 (secrets_nonzero b Hb r) (proj1 (zero_free _) Z'))) as Q. congruence.
  - pose proof (proj1 (zero_free r) Z) as Hz. unfold genuine. replace (finv b * (a * (b * c))) with (a * c) by (field; exact Hb).
    rewrite (made_pub_ok a b c Hb), (made_del_ok a b c Hb _ r Hz). rewrite (mimic_play a b c Hb elems Hnd Hall r w _ Hr Hz n [] [] true); [|intros [|i] f' E'; discriminate E'|apply Hlaw].
    apply total_ext. intros u _. rewrite experiment_ok; [reflexivity|rewrite secrets_length; exact Hr|exact (proj2 (secrets_nonzero b Hb r) Hz)].
Qed.
Lemma random_count : on_random elems (solver_coins size elems coins n) (solve P gam start true) = on_random elems (solver_coins size elems coins n) (solve P gam start false).
Proof using BL Hnd Hall Hlaw.
  unfold on_random, solver_coins. rewrite !total_prod. apply total_ext. intros x _. rewrite !total_prod. apply total_ext. intros r Hr. unfold solve. destruct (existsb (feqb 0) r) eqn:Z; [reflexivity|].
  rewrite !(total_swap (tuples elems n) (nonzero elems)). apply total_ext. intros b Hb. apply nonzero_in in Hb.
  rewrite !(total_swap (tuples elems n) elems). apply total_ext. intros a _. rewrite !(total_swap (tuples elems n) elems). apply total_ext. intros c _.
  pose proof (proj1 (zero_free r) Z) as Hz.
  assert (E : forall w, total (tuples elems n) (fun v => total elems (fun z => bit (mimic P gam (puzzle_of a b c z) r w [] v (start x (made_pub gam (puzzle_of a b c z) r) (made_del gam (puzzle_of a b c z) r))))) =
    total (tuples elems n) (fun v => total elems (fun z => bit (mimic P gam (puzzle_of a b c z) r w [] v (start x (pub_of B (secrets b r) a) (mkDel (inv_of B (secrets b r)))))))).
  { intros w. apply total_ext. intros v _. apply total_ext. intros z _. rewrite (made_pub_ok a b c Hb), (made_del_ok a b c Hb _ r Hz). reflexivity. }
  rewrite !E. apply (mimic_blind a b c elems Hnd Hall r _ n [] true). apply Hlaw.
Qed.
End Attacker.
End Reduction.

(** ** C111 *)
(** On genuine puzzles the solver answers as often as the attacker does in the experiment, on random ones
    equally often for both messages. *)
Theorem C111_solver_counts (B : BilinearMap) (BL : BilinearLaws B) P size gam {R} (start : R -> master_public_key B -> delegation_key B -> attacker B)
    (elems : list (bm_K B)) (coins : list R) n :
  NoDup elems -> (forall x : bm_K B, In x elems) -> (forall x pub del, lawful P size gam n [] true (start x pub del)) ->
  (forall w, on_genuine elems (solver_coins size elems coins n) (solve P gam start w) = ((length elems - 1) * answers_true P size gam start elems coins n w)%nat) /\
  on_random elems (solver_coins size elems coins n) (solve P gam start true) = on_random elems (solver_coins size elems coins n) (solve P gam start false).
Proof.
  intros Hnd Hall Hlaw. split.
  - intros w. rewrite (genuine_count B BL) by assumption. rewrite <- (nonzero_length B BL elems Hnd Hall). f_equal. cbn [Nat.sub]. lia.
  - apply (random_count B BL); assumption.
Qed.
(** So one of the two solvers has at least half the advantage of the attacker. Both sides count the same
    draws: the left one those of the experiment, with the q (q - 1) further values of a puzzle. *)
Theorem C111_attacker_solves (B : BilinearMap) (BL : BilinearLaws B) P size gam {R} (start : R -> master_public_key B -> delegation_key B -> attacker B)
    (elems : list (bm_K B)) (coins : list R) n :
  NoDup elems -> (forall x : bm_K B, In x elems) -> (forall x pub del, lawful P size gam n [] true (start x pub del)) ->
  let q := Z.of_nat (length elems) in
  exists w, (q * (q - 1) * Z.abs (Z.of_nat (answers_true P size gam start elems coins n true) - Z.of_nat (answers_true P size gam start elems coins n false))
    <= 2 * advantage elems (solver_coins size elems coins n) (solve P gam start w))%Z.
Proof.
  intros Hnd Hall Hlaw q. destruct (C111_solver_counts B BL P size gam start elems coins n Hnd Hall Hlaw) as [G Hr].
  assert (Hq : (1 <= length elems)%nat) by (pose proof (nonzero_length B BL elems Hnd Hall); lia).
  assert (Eq : Z.of_nat (length elems - 1) = (q - 1)%Z) by (unfold q; lia).
  set (t := Z.of_nat (answers_true P size gam start elems coins n true)). set (f := Z.of_nat (answers_true P size gam start elems coins n false)).
  set (rnd := Z.of_nat (on_random elems (solver_coins size elems coins n) (solve P gam start true))).
  assert (At : advantage elems (solver_coins size elems coins n) (solve P gam start true) = Z.abs (q * ((q - 1) * t) - rnd)).
  { unfold advantage. rewrite G, !Nat2Z.inj_mul, Eq. reflexivity. }
  assert (Af : advantage elems (solver_coins size elems coins n) (solve P gam start false) = Z.abs (q * ((q - 1) * f) - rnd)).
  { unfold advantage. rewrite G, <- Hr, !Nat2Z.inj_mul, Eq. reflexivity. }
  assert (E : (q * (q - 1) * Z.abs (t - f) = Z.abs (q * ((q - 1) * t) - q * ((q - 1) * f)))%Z).
  { replace (q * ((q - 1) * t) - q * ((q - 1) * f))%Z with (q * (q - 1) * (t - f))%Z by ring. rewrite Z.abs_mul. f_equal. symmetry. apply Z.abs_eq. apply Z.mul_nonneg_nonneg; unfold q; lia. }
  rewrite E. destruct (Z.le_ge_cases (Z.abs (q * ((q - 1) * t) - q * ((q - 1) * f))) (2 * Z.abs (q * ((q - 1) * t) - rnd))) as [L|L].
  - exists true. rewrite At. exact L.
  - exists false. rewrite Af. lia.
Qed.

(** ** Many ciphertexts *)
Section Many.
Variable B : BilinearMap.
Local Notation K := (bm_K B).
Variable P : platform.

(** what the entries stand for *)
Definition stands (w : bool) (s : K) (e : option (list N * bool * K)) (gam : list N) (ws : bool) (ss : K) (target : list N) : Prop :=
  match e with Some x => x = (gam, ws, ss) | None => gam = target /\ ws = w /\ ss = s end.
Fixpoint stand (w : bool) (s : K) (target : list N) (l : list (option (list N * bool * K))) (gams : list (list N)) (ws : list bool) (ss : list K) : Prop :=
  match l, gams, ws, ss with
  | [], [], [], [] => True
  | e :: l, gam :: gams, w' :: ws, s' :: ss => stands w s e gam w' s' target /\ stand w s target l gams ws ss
  | _, _, _, _ => False
  end.
Lemma alone_play (mk : master_key B) w s target p : forall l gams ws ss fs uks u, stand w s target l gams ws ss ->
  play P target mk w s fs uks u (alone P (pub_key mk) l p) = play_many P mk gams ws ss fs uks u p.
Proof.
  induction p as [g|e next IH|e next IH|m0 m1 next IH]; intros l gams ws ss fs uks u H.
  - reflexivity.
  - cbn [alone play play_many]. apply IH. exact H.
  - cbn [alone play play_many]. apply IH. exact H.
  - destruct l as [|e l], gams as [|gam gams], ws as [|w' ws], ss as [|s' ss]; try destruct H; [reflexivity|]. cbn [alone play_many].
    destruct e as [x|]; cbn [stands] in H; [subst x; apply IH; assumption|]. destruct H as (-> & -> & ->). cbn [play]. apply IH. assumption.
Qed.
Definition open_ (l : list (option (list N * bool * K))) : bool := existsb (fun e => match e with None => true | _ => false end) l.
Lemma alone_lawful size (pub : master_public_key B) gams target p : In target gams -> forall l n fs m, (length l <= m)%nat ->
  (forall l1 l2, l = l1 ++ None :: l2 -> open_ l2 = false) -> lawful_many P size gams n fs m p -> lawful P size target n fs (open_ l) (alone P pub l p).
Proof.
  intros Ht. induction p as [g|e next IH|e next IH|m0 m1 next IH]; intros l n fs m Hl Ho L.
  - exact I.
  - destruct L as (Hp & L). cbn [alone lawful]. split; [exact Hp|]. intros f Hf. destruct (L f Hf) as (Hu & Hn & L'). split; [apply Hu; exact Ht|]. split; [exact Hn|]. intros r. apply (IH r l _ _ m Hl Ho). apply L'.
  - destruct L as (Hp & L). cbn [alone lawful]. split; [exact Hp|]. intros f Hf. destruct (L f Hf) as (Hn & L'). split; [exact Hn|]. apply (IH l _ _ m Hl Ho). apply L'.
  - destruct l as [|[[[gam w] s]|] l]; [exact I| |]; (destruct m as [|m]; [destruct L|]); cbn [length] in Hl; cbn [alone].
    + change (open_ (Some (gam, w, s) :: l)) with (open_ l). apply (IH _ l n fs m); [lia| |apply L]. intros l1 l2 E. apply (Ho (Some (gam, w, s) :: l1) l2). rewrite E. reflexivity.
    + cbn [lawful]. split; [reflexivity|]. intros r. rewrite <- (Ho [] l eq_refl). apply (IH r l n fs m); [lia| |apply L]. intros l1 l2 E. apply (Ho (None :: l1) l2). rewrite E. reflexivity.
Qed.

Lemma stand_app w s target l1 g1 w1 s1 l2 g2 w2 s2 : stand w s target l1 g1 w1 s1 -> stand w s target l2 g2 w2 s2 -> stand w s target (l1 ++ l2) (g1 ++ g2) (w1 ++ w2) (s1 ++ s2).
Proof.
  revert g1 w1 s1. induction l1 as [|e l1 IH]; intros [|g g1] [|x w1] [|y s1] H H2; try destruct H; [exact H2|]. cbn [app stand]. split; [assumption|]. apply IH; assumption.
Qed.
Lemma stand_own w s target b (g : list (list N)) : forall (ss : list K), length ss = length g -> stand w s target (map (fun p => Some (fst p, b, snd p)) (combine g ss)) g (repeat b (length g)) ss.
Proof. induction g as [|x g IH]; intros [|y ss] L; try discriminate; [exact I|]. cbn [combine map length repeat stand]. split; [reflexivity|]. apply IH. cbn in L. lia. Qed.
Lemma own_closed b (l : list (list N * K)) : open_ (map (fun p => Some (fst p, b, snd p)) l) = false.
Proof. induction l as [|x l IH]; [reflexivity|]. exact IH. Qed.
End Many.

Section Hybrid.
Variable B : BilinearMap.
Variable BL : BilinearLaws B.
Local Notation K := (bm_K B).
Variable P : platform.
Variable size : nat.
Variable gams : list (list N).
Context {R : Type}.
Variable start : R -> master_public_key B -> delegation_key B -> attacker B.
Variable elems : list K.
Variable coins : list R.
Variable n : nat.
Hypothesis Hnd : NoDup elems.
Hypothesis Hall : forall x : K, In x elems.
Hypothesis Hlaw : forall x pub del, lawful_many P size gams n [] (length gams) (start x pub del).

(** the first [i] ciphertexts are of the second messages *)
Definition middle (i : nat) : nat :=
  total coins (fun c => total (tuples elems size) (fun t => total elems (fun y => total (tuples elems (length gams)) (fun ss =>
    total (tuples elems n) (fun u => bit (experiment_many P size gams (start c) (repeat true i ++ repeat false (length gams - i)) t y u ss)))))).

Lemma one_lawful i : (i < length gams)%nat -> forall x pub del,
  lawful P size (nth i gams []) n [] true (one_of P gams i start x pub del).
Proof using Hlaw.
  intros Hi [c [before after]] pub del. unfold one_of.
  set (l := map (fun p => Some (fst p, true, snd p)) (combine (firstn i gams) before) ++ None :: map (fun p => Some (fst p, false, snd p)) (combine (skipn (S i) gams) after)).
  replace true with (open_ B l).
  - apply (alone_lawful B P size pub gams _ _ (nth_In gams [] Hi) l n [] (length gams)); [| |apply Hlaw].
    + unfold l. rewrite app_length. cbn [length]. rewrite !map_length, !combine_length, firstn_length, skipn_length. lia.
    + intros l1 l2 E. unfold l in E. assert (G : forall m1 m2 k1 k2 : list (option (list N * bool * K)), open_ B m1 = false -> open_ B m2 = false -> m1 ++ None :: m2 = k1 ++ None :: k2 -> open_ B k2 = false).
      { clear. induction m1 as [|e m1 IH]; intros m2 [|e' k1] k2 H1 H2 E.
        - cbn in E. congruence.
        - cbn in E. assert (E' : m2 = k1 ++ None :: k2) by congruence. subst m2. unfold open_ in H2. rewrite existsb_app in H2. cbn in H2. rewrite orb_true_r in H2. discriminate.
        - cbn in E. assert (e = None) by congruence. subst e. discriminate.
        - cbn in E. apply (IH m2 k1 k2); [|exact H2|congruence]. unfold open_ in *. cbn [existsb] in H1. apply orb_false_iff in H1 as [_ H1]. exact H1. }
      apply (G _ _ _ _ (own_closed B true _) (own_closed B false _) E).
  - unfold l, open_. rewrite existsb_app. cbn. rewrite orb_true_r. reflexivity.
Qed.
Lemma one_step i w : (i < length gams)%nat ->
  answers_true P size (nth i gams []) (one_of P gams i start) elems (one_coins gams i elems coins) n w = middle (if w then S i else i).
Proof using.
  intros Hi. unfold answers_true, one_coins, middle. rewrite total_prod. apply total_ext. intros c _.
  rewrite total_prod.
  assert (Hw : repeat true i ++ w :: repeat false (length gams - S i) = repeat true (if w then S i else i) ++ repeat false (length gams - (if w then S i else i))).
  { destruct w; [change (repeat true i ++ [true] ++ repeat false (length gams - S i) = (true :: repeat true i) ++ repeat false (length gams - S i)); rewrite app_assoc; f_equal; symmetry; apply repeat_cons|]. replace (length gams - i)%nat with (S (length gams - S i)) by lia. reflexivity. }
  rewrite <- Hw.
  transitivity (total (tuples elems i) (fun s1 => total (tuples elems (length gams - S i)) (fun s2 => total (tuples elems size) (fun t => total elems (fun y => total elems (fun s => total (tuples elems n) (fun u =>
    bit (experiment_many P size gams (start c) (repeat true i ++ w :: repeat false (length gams - S i)) t y u (s1 ++ s :: s2))))))))).
  - apply total_ext. intros s1 H1. apply total_ext. intros s2 H2. apply tuples_length in H1, H2.
    apply total_ext. intros t _. apply total_ext. intros y _. apply total_ext. intros s _. apply total_ext. intros u _. f_equal.
    unfold experiment, experiment_many. destruct (generate_master_key _ _) as [mk| |]; try reflexivity. unfold one_of. apply alone_play.
    assert (Hg : gams = firstn i gams ++ nth i gams [] :: skipn (S i) gams).
    { clear - Hi. revert i Hi. induction gams as [|g l IH]; intros [|i] Hi; cbn in Hi; try lia; [reflexivity|]. cbn [firstn nth skipn app]. f_equal. apply IH. lia. }
    assert (L1 : length (firstn i gams) = i) by (rewrite firstn_length; lia). assert (L2 : length (skipn (S i) gams) = (length gams - S i)%nat) by apply skipn_length.
    pose proof (stand_own B w s (nth i gams []) true (firstn i gams) s1) as G1. rewrite L1 in G1. specialize (G1 H1).
    pose proof (stand_own B w s (nth i gams []) false (skipn (S i) gams) s2) as G2. rewrite L2 in G2. specialize (G2 H2).
    assert (G3 : stand B w s (nth i gams []) (None :: map (fun p => Some (fst p, false, snd p)) (combine (skipn (S i) gams) s2)) (nth i gams [] :: skipn (S i) gams) (w :: repeat false (length gams - S i)) (s :: s2)).
    { cbn [stand stands]. split; [auto|exact G2]. }
    pose proof (stand_app B w s (nth i gams []) _ _ _ _ _ _ _ _ G1 G3) as G. rewrite <- Hg in G. exact G.
  - transitivity (total (tuples elems size) (fun t => total elems (fun y => total (tuples elems i) (fun s1 => total (tuples elems (length gams - S i)) (fun s2 => total elems (fun s => total (tuples elems n) (fun u =>
      bit (experiment_many P size gams (start c) (repeat true i ++ w :: repeat false (length gams - S i)) t y u (s1 ++ s :: s2))))))))).
    + etransitivity; [apply total_ext; intros s1 _; apply total_swap|]. rewrite total_swap. apply total_ext. intros t _.
      etransitivity; [apply total_ext; intros s1 _; apply total_swap|]. rewrite total_swap. reflexivity.
    + apply total_ext. intros t _. apply total_ext. intros y _. replace (tuples elems (length gams)) with (tuples elems (i + S (length gams - S i))) by (f_equal; lia). rewrite total_tuples_app.
      apply total_ext. intros s1 _. rewrite total_tuples_S. apply total_swap.
Qed.
Lemma middle_ends w : answers_true_many P size gams start elems coins n w = middle (if w then length gams else 0).
Proof using.
  unfold answers_true_many, middle. destruct w; [rewrite Nat.sub_diag, app_nil_r; reflexivity|]. rewrite Nat.sub_0_r. reflexivity.
Qed.
End Hybrid.


(** The same with many ciphertexts, each for its own attributes: if the attacker tells whether always the
    first messages or always the second ones are encrypted, then its solver for one of the ciphertexts has
    an advantage smaller by their number at most. *)
Theorem C111_many_texts (B : BilinearMap) (BL : BilinearLaws B) P size gams {R} (start : R -> master_public_key B -> delegation_key B -> attacker B)
    (elems : list (bm_K B)) (coins : list R) (n : nat) :
  NoDup elems -> (forall x : bm_K B, In x elems) -> gams <> [] ->
  (forall x pub del, lawful_many P size gams n [] (length gams) (start x pub del)) ->
  exists i w, (i < length gams)%nat /\
  (Z.of_nat (length elems) * (Z.of_nat (length elems) - 1) *
     Z.abs (Z.of_nat (answers_true_many P size gams start elems coins n true) - Z.of_nat (answers_true_many P size gams start elems coins n false))
   <= 2 * Z.of_nat (length gams) *
      advantage elems (solver_coins size elems (one_coins gams i elems coins) n) (solve P (nth i gams []) (one_of P gams i start) w))%Z.
Proof.
  intros Hnd Hall Hg Hlaw.
  set (M := middle B P size gams start elems coins n). set (adv := fun i w => advantage elems (solver_coins size elems (one_coins gams i elems coins) n) (solve P (nth i gams []) (one_of P gams i start) w)).
  set (q := Z.of_nat (length elems)).
  assert (Hq : (0 <= q * (q - 1))%Z). { unfold q. destruct elems as [|x l]; [destruct (Hall (@f0 (bm_K B)))|]. cbn [length]. nia. }
  assert (Step : forall i, (i < length gams)%nat -> exists w, (q * (q - 1) * Z.abs (Z.of_nat (M (S i)) - Z.of_nat (M i)) <= 2 * adv i w)%Z).
  { intros i Hi. destruct (C111_attacker_solves B BL P size (nth i gams []) (one_of P gams i start) elems (one_coins gams i elems coins) n Hnd Hall) as [w Hw].
    - intros x pub del. apply one_lawful; assumption.
    - exists w. rewrite !one_step in Hw by exact Hi. exact Hw. }
  assert (Best : forall k, (S k <= length gams)%nat -> exists i w, (i < length gams)%nat /\ (q * (q - 1) * Z.abs (Z.of_nat (M (S k)) - Z.of_nat (M 0%nat)) <= 2 * Z.of_nat (S k) * adv i w)%Z).
  { induction k as [|k IH]; intros Hk.
    - destruct (Step 0%nat) as [w Hw]; [lia|]. exists 0%nat, w. split; [lia|]. lia.
    - destruct IH as (i & w & Hi & Hw); [lia|]. destruct (Step (S k)) as [w' Hw']; [lia|].
      assert (Z.abs (Z.of_nat (M (S (S k))) - Z.of_nat (M 0%nat)) <= Z.abs (Z.of_nat (M (S (S k))) - Z.of_nat (M (S k))) + Z.abs (Z.of_nat (M (S k)) - Z.of_nat (M 0%nat)))%Z by lia.
      destruct (Z_le_gt_dec (adv i w) (adv (S k) w')).
      + exists (S k), w'. split; [lia|]. nia.
      + exists i, w. split; [lia|]. nia. }
  assert (Lg : (1 <= length gams)%nat) by (destruct gams; [destruct (Hg eq_refl)|cbn; lia]).
  destruct (Best (pred (length gams))) as (i & w & Hi & Hw); [lia|].
  exists i, w. split; [exact Hi|]. rewrite !middle_ends. replace (S (pred (length gams))) with (length gams) in Hw by lia. exact Hw.
Qed.
Print Assumptions C111_many_texts.

(** ** C112 *)
Section Headers.
Variable B : BilinearMap.
Local Notation K := (bm_K B).
Variable P : platform.
Variable F : byte_forms B.
Variable shake : list byte -> nat -> list byte.
Variable pol : policy.
Variable len : nat.
Lemma speaks_lawful size gams p : forall n fs m xs, lawful_headers P size gams n fs m p -> lawful_many P size gams n fs m (speaks F shake len xs p).
Proof.
  induction p as [g|e next IH|e next IH|next IH]; intros n fs m xs L.
  - exact I.
  - destruct L as (Hp & L). cbn [speaks lawful_many]. split; [exact Hp|]. intros f Hf. destruct (L f Hf) as (Hu & Hn & L'). split; [exact Hu|]. split; [exact Hn|]. intros r. apply IH. apply L'.
  - destruct L as (Hp & L). cbn [speaks lawful_many]. split; [exact Hp|]. intros f Hf. destruct (L f Hf) as (Hn & L'). split; [exact Hn|]. apply IH. exact L'.
  - destruct m as [|m]; [destruct L|]. destruct xs as [|[x x'] xs]; [exact I|]. cbn [speaks lawful_many]. intros r. apply IH. apply L.
Qed.
Lemma speaks_play (mk : master_key B) real p : forall ls gams xs ss fs uks u, Forall2 (fun l gam => attributes_values pol l = Ok gam) ls gams -> length xs = length ls ->
  play_many P mk gams (repeat (negb real) (length ls)) ss fs uks u (speaks F shake len xs p) = play_headers P F shake pol len mk real ls xs ss fs uks u p.
Proof.
  induction p as [g|e next IH|e next IH|next IH]; intros ls gams xs ss fs uks u H Lx.
  - reflexivity.
  - cbn [speaks play_many play_headers]. apply IH; assumption.
  - cbn [speaks play_many play_headers]. apply IH; assumption.
  - destruct H as [|l gam ls gams Hl H]; destruct xs as [|[x x'] xs]; try discriminate; [reflexivity|]. cbn [speaks play_many play_headers length repeat]. destruct ss as [|s ss]; [reflexivity|].
    rewrite (IH _ ls gams xs ss fs uks u H) by (cbn in Lx; lia). f_equal. f_equal. destruct real; cbn [negb].
    + unfold generate_symmetric_key, eng_encrypt. rewrite Hl. reflexivity.
    + unfold mismatched, eng_encrypt. rewrite Hl. reflexivity.
Qed.
End Headers.

(** An attacker that is told symmetric keys with headers, and tells whether they belong to the headers or are made
    from unrelated elements, solves the problem as well. *)
Theorem C112_headers (B : BilinearMap) (BL : BilinearLaws B) P size F shake pol len ls gams {R} (start : R -> master_public_key B -> delegation_key B -> listener B)
    (elems : list (bm_K B)) (coins : list R) (n : nat) :
  NoDup elems -> (forall x : bm_K B, In x elems) -> ls <> [] -> Forall2 (fun l gam => attributes_values pol l = Ok gam) ls gams ->
  (forall x pub del, lawful_headers P size gams n [] (length ls) (start x pub del)) ->
  exists i w, (i < length ls)%nat /\
  (Z.of_nat (length elems) * (Z.of_nat (length elems) - 1) *
     Z.abs (Z.of_nat (answers_true_headers P size F shake pol len ls start elems coins n true) - Z.of_nat (answers_true_headers P size F shake pol len ls start elems coins n false))
   <= 2 * Z.of_nat (length ls) *
      advantage elems (solver_coins size elems (one_coins gams i elems (speaker_coins elems coins (length ls))) n)
        (solve P (nth i gams []) (one_of P gams i (speaker F shake len start)) w))%Z.
Proof.
  intros Hnd Hall Hl Hg Hlaw. assert (Lg : length ls = length gams) by (clear -Hg; induction Hg; cbn; lia).
  destruct (C111_many_texts B BL P size gams (speaker F shake len start) elems (speaker_coins elems coins (length ls)) n Hnd Hall) as (i & w & Hi & Hw).
  - intros ->. destruct ls; [destruct (Hl eq_refl)|discriminate].
  - intros [c xs] pub del. unfold speaker. apply speaks_lawful. rewrite <- Lg. apply Hlaw.
  - exists i, w. split; [rewrite Lg; exact Hi|].
    assert (E : forall real, answers_true_headers P size F shake pol len ls start elems coins n real = answers_true_many P size gams (speaker F shake len start) elems (speaker_coins elems coins (length ls)) n (negb real)).
    { intros real. unfold answers_true_headers, answers_true_many, speaker_coins. rewrite total_prod. apply total_ext. intros c _. apply total_ext. intros xs Hx. apply tuples_length in Hx. rewrite <- Lg.
      apply total_ext. intros t _. apply total_ext. intros y _. apply total_ext. intros ss _. apply total_ext. intros u _. f_equal. unfold experiment_headers, experiment_many.
      destruct (generate_master_key _ _) as [mk| |]; try reflexivity. unfold speaker. cbn [fst snd]. symmetry. apply speaks_play; assumption. }
    rewrite !E. cbn [negb]. rewrite <- Lg in Hw. rewrite <- Z.abs_opp, Z.opp_sub_distr, Z.add_comm, Z.add_opp_r. exact Hw.
Qed.
Print Assumptions C112_headers.

(** ** Examples *)
(** The field with three elements and groups in which logarithms are known. Somebody
    else has a key that is satisfied by the ciphertext and delegates it to the attacker for the other attribute;
    the attacker asks for a further key for both attributes, then for the ciphertext, and computes the mask. It is right
    whenever there is a master key, and so is its solver on the genuine puzzles. *)
Definition m3 : modulus := mkMod 3 eq_refl.
Definition toy3 : BilinearMap := exp_model (zp_ops m3) (fun _ => Ok (zmod m3 0)).
Lemma toy3_laws : BilinearLaws toy3.
Proof.
  apply exp_model_laws. apply zp_laws. apply prime_test_ok. vm_compute. reflexivity.
Qed.
Definition k3 (z : Z) : bm_K toy3 := zmod m3 z.
Definition all3 : list (bm_K toy3) := map k3 [0; 1; 2]%Z.
Definition c111_attacker (m : bm_K toy3) (pub : master_public_key toy3) (del : delegation_key toy3) : attacker toy3 :=
  @OtherKey toy3 (Generated (Or (Leaf 0) (Leaf 1))) (@WantKey toy3 (Delegated 0 (Leaf 1)) (fun _ => @WantKey toy3 (Generated (And (Leaf 0) (Leaf 1))) (fun _ => @WantText toy3 m (fadd m f1) (fun ct =>
    Guess (match ct, pub_t pub with
           | Ok ct, t :: _ => match e_i ct with e :: _ => @feqb toy3 (e_prime ct) (@fadd toy3 (fadd m f1) (@fmul toy3 (pub_y pub) (@fmul toy3 e (@finv toy3 t)))) | [] => false end
           | _, _ => false
           end))))).
Example C111_example :
  NoDup all3 /\ (forall x : bm_K toy3, In x all3) /\ (forall m pub del, lawful pf 2 [0%N] 1 [] true (c111_attacker m pub del)) /\
  answers_true pf 2 [0%N] c111_attacker all3 [k3 0; k3 1] 1 true = 216%nat /\
  answers_true pf 2 [0%N] c111_attacker all3 [k3 0; k3 1] 1 false = 0%nat /\
  advantage all3 (solver_coins 2 all3 [k3 0; k3 1] 1) (solve pf [0%N] c111_attacker true) = 864%Z.
Proof.
  split; [|split; [|split; [|split; [|split]]]].
  - repeat constructor; cbn; intros H; repeat destruct H as [H|H]; try (apply (f_equal zval) in H; discriminate H); exact H.
  - intros x. change (zp m3) in x. destruct x as [z Hz]. assert (R : (0 <= z < 3)%Z) by exact (zp_range m3 (mkZp z Hz)).
    assert (E : (z = 0 \/ z = 1 \/ z = 2)%Z) by lia. destruct E as [E|[E|E]]; [left|right; left|right; right; left]; apply zp_eq; symmetry; exact E.
  - intros m pub del. cbn -[to_msp]. split; [exact I|]. intros f Hf. assert (f = Or (Leaf 0) (Leaf 1)) by congruence. subst f. cbn [count_and]. split; [lia|].
    split; [exists (Or (Leaf 0) (Leaf 1)); split; [reflexivity|split; [split; [eexists; reflexivity|]|split; [right; apply rs_or_right|eexists; reflexivity]]]|].
    { intros x [<-|[<-|[]]]; cbn; lia. }
    intros f Hf'. assert (f = Leaf 1) by congruence. subst f. split; [cbn; intros [H|[]]; discriminate|]. cbn [count_and]. split; [lia|]. intros _. split; [exact I|].
    intros f Hf''. assert (f = And (Leaf 0) (Leaf 1)) by congruence. subst f. split; [cbn; intros [_ [H|[]]]; discriminate|]. cbn. split; [lia|]. intros _. split; [reflexivity|]. intros _. exact I.
  - vm_compute. reflexivity.
  - vm_compute. reflexivity.
  - vm_compute. reflexivity.
Qed.
(** Two ciphertexts, one for each attribute; the attacker answers whether the second shows the second message. *)
Definition c111_two (m : bm_K toy3) (pub : master_public_key toy3) (del : delegation_key toy3) : attacker toy3 :=
  @WantText toy3 m (fadd m f1) (fun _ => @WantKey toy3 (Generated (And (Leaf 0) (Leaf 1))) (fun _ => @WantText toy3 m (fadd m f1) (fun ct =>
    Guess (match ct, pub_t pub with
           | Ok ct, _ :: t :: _ => match e_i ct with e :: _ => @feqb toy3 (e_prime ct) (@fadd toy3 (fadd m f1) (@fmul toy3 (pub_y pub) (@fmul toy3 e (@finv toy3 t)))) | [] => false end
           | _, _ => false
           end)))).
Example C111_two_texts :
  (forall m pub del, lawful_many pf 2 [[0%N]; [1%N]] 1 [] 2 (c111_two m pub del)) /\
  answers_true_many pf 2 [[0%N]; [1%N]] c111_two all3 [k3 0] 1 true = 324%nat /\
  answers_true_many pf 2 [[0%N]; [1%N]] c111_two all3 [k3 0] 1 false = 0%nat /\
  advantage all3 (solver_coins 2 all3 (one_coins [[0%N]; [1%N]] 0 all3 [k3 0]) 1) (solve pf [0%N] (one_of pf [[0%N]; [1%N]] 0 c111_two) true) = 0%Z /\
  advantage all3 (solver_coins 2 all3 (one_coins [[0%N]; [1%N]] 1 all3 [k3 0]) 1) (solve pf [1%N] (one_of pf [[0%N]; [1%N]] 1 c111_two) true) = 1296%Z.
Proof.
  split; [|split; [|split; [|split]]].
  - intros m pub del. cbn. intros r. split; [exact I|]. intros f Hf. assert (f = And (Leaf 0) (Leaf 1)) by congruence. subst f. split; [|split; [cbn; lia|intros r' r''; exact I]].
    intros gam [<-|[<-|[]]] [H1 H2].
    + destruct H2 as [H|[]]. discriminate.
    + destruct H1 as [H|[]]. discriminate.
  - vm_compute. reflexivity.
  - vm_compute. reflexivity.
  - vm_compute. reflexivity.
  - vm_compute. reflexivity.
Qed.
(** One header. The attacker computes the encrypted element and its symmetric key. If the key told with the header
    is unrelated, the two are equal only if the elements are. *)
Definition form3 (size : nat) : compressed (zp m3) := mkCompressed
  (fun x => byte_of (Z.to_N (zval x)) :: repeat x00 (size - 1))
  (fun b => match b with
            | x :: t => if (Byte.to_N x <? 3)%N && forallb (fun y => Byte.to_N y =? 0)%N t && Nat.eqb (length b) size
                        then Some (zmod m3 (Z.of_N (Byte.to_N x))) else None
            | [] => None
            end).
Definition toy3_forms : byte_forms toy3 := mkForms toy3 (form3 32) (form3 48) (form3 96) (form3 288) 104 200 576.
Definition c112_listener (_ : unit) (pub : master_public_key toy3) (del : delegation_key toy3) : listener toy3 :=
  @HearKey toy3 (Generated (And (Leaf 0) (Leaf 1))) (fun _ => @HearHeader toy3 (fun r =>
    Verdict (match r, pub_t pub with
             | Ok (key, header), _ :: t :: _ =>
                 match ct_dec toy3_forms pf header with
                 | Ok ct => match e_i ct with
                            | e :: _ => match enc (gt_codec toy3_forms) (@fsub toy3 (e_prime ct) (@fmul toy3 (pub_y pub) (@fmul toy3 e (@finv toy3 t)))) with
                                        | Ok bytes => if list_eq_dec Byte.byte_eq_dec (toy_shake bytes 2) key then true else false
                                        | _ => false
                                        end
                            | [] => false
                            end
                 | _ => false
                 end
             | _, _ => false
             end))).
Example C112_example :
  attributes_values pol_a [level "Protected"] = Ok [1%N] /\
  (forall x pub del, lawful_headers pf 2 [[1%N]] 1 [] 1 (c112_listener x pub del)) /\
  answers_true_headers pf 2 toy3_forms toy_shake pol_a 2 [[level "Protected"]] c112_listener all3 [Datatypes.tt] 1 true = 972%nat /\
  answers_true_headers pf 2 toy3_forms toy_shake pol_a 2 [[level "Protected"]] c112_listener all3 [Datatypes.tt] 1 false = 324%nat.
Proof.
  split; [vm_compute; reflexivity|]. split; [|split].
  - intros x pub del. cbn. split; [exact I|]. intros f Hf. assert (f = And (Leaf 0) (Leaf 1)) by congruence. subst f. split; [|split; [cbn; lia|intros r r'; exact I]].
    intros gam [<-|[]] [[H|[]] _]. discriminate.
  - vm_compute. reflexivity.
  - vm_compute. reflexivity.
Qed.

Print Assumptions C111_solver_counts.
Print Assumptions C111_attacker_solves.

(** Finite sums and scalar products over an arbitrary field. Tools for proofs. *)
From Coq Require Import NArith ZArith Bool Lia Permutation Setoid Morphisms Field_theory Ring_theory
  Field InitialRing List.
From Verif Require Import Prelude Field.
Import ListNotations.

Section LinAlg.
Variable K : FieldOps.
Variable KL : FieldLaws K.

Local Notation "0" := (@f0 K).
Local Notation "1" := (@f1 K).
Local Infix "+" := (@fadd K).
Local Infix "*" := (@fmul K).
Local Infix "-" := (@fsub K).
Local Notation "- x" := (@fneg K x).

Add Field KF : (fl_field K KL).

Lemma K_1_neq_0 : 1 <> 0.
Proof. exact (F_1_neq_0 (fl_field K KL)). Qed.

Lemma K_eq_dec (a b : K) : {a = b} + {a <> b}.
Proof.
  destruct (feqb a b) eqn:E.
  - left. apply (fl_eqb K KL); exact E.
  - right. intros H. apply (fl_eqb K KL) in H. congruence.
Qed.

Lemma feqb_false (a b : K) : feqb a b = false <-> a <> b.
Proof.
  destruct (feqb a b) eqn:E; split; intros H; try congruence.
  - apply (fl_eqb K KL) in E; contradiction.
  - intros H'. apply (fl_eqb K KL) in H'. congruence.
Qed.

Lemma feqb_refl (a : K) : feqb a a = true.
Proof. apply (fl_eqb K KL); reflexivity. Qed.

Lemma fsub_zero (a b : K) : a - b = 0 -> a = b.
Proof. intros H. transitivity (a - b + b); [ring|]. rewrite H; ring. Qed.

Lemma fmul_zero (a b : K) : a * b = 0 -> a = 0 \/ b = 0.
Proof.
  intros H. destruct (K_eq_dec a 0) as [Ha|Ha]; [left; exact Ha|right].
  transitivity (finv a * (a * b)); [field; exact Ha|]. rewrite H; ring.
Qed.

Lemma fmul_cancel (a b c : K) : c <> 0 -> a * c = b * c -> a = b.
Proof.
  intros Hc H. apply fsub_zero.
  destruct (fmul_zero (a - b) c) as [H'|H']; [|exact H'|contradiction].
  transitivity (a * c - b * c); [ring|rewrite H; ring].
Qed.

(** of_Z is a ring morphism *)
Let Rth := F_R (fl_field K KL).
Lemma phiZ_morph :
  ring_morph 0 1 fadd fmul fsub fneg eq
             Z0 1%Z Z.add Z.mul Z.sub Z.opp Zeq_bool (@of_Z K).
Proof.
  unfold of_Z. apply gen_phiZ_morph.
  - apply Eqsth.
  - apply Eq_ext.
  - exact Rth.
Qed.
Lemma of_Z_0 : of_Z 0%Z = 0.
Proof. apply (morph0 phiZ_morph). Qed.
Lemma of_Z_1 : of_Z 1%Z = 1.
Proof. apply (morph1 phiZ_morph). Qed.
Lemma of_Z_add a b : of_Z (a + b)%Z = of_Z a + of_Z b.
Proof. apply (morph_add phiZ_morph). Qed.
Lemma of_Z_mul a b : of_Z (a * b)%Z = of_Z a * of_Z b.
Proof. apply (morph_mul phiZ_morph). Qed.
Lemma of_Z_opp a : of_Z (Z.opp a) = - of_Z a.
Proof. apply (morph_opp phiZ_morph). Qed.

(** Sums over lists *)
Definition suml {A} (g : A -> K) (l : list A) : K :=
  fold_right (fun x s => g x + s) 0 l.

Lemma suml_cons {A} (g : A -> K) x l : suml g (x :: l) = g x + suml g l.
Proof. reflexivity. Qed.

Lemma suml_app {A} (g : A -> K) l1 l2 : suml g (l1 ++ l2) = suml g l1 + suml g l2.
Proof. induction l1 as [|x t IH]; simpl; [ring|rewrite IH; ring]. Qed.

Lemma suml_ext {A} (g h : A -> K) l :
  (forall x, In x l -> g x = h x) -> suml g l = suml h l.
Proof.
  induction l as [|x t IH]; simpl; intros H; [reflexivity|].
  rewrite H by auto. rewrite IH by auto. reflexivity.
Qed.

Lemma suml_add {A} (g h : A -> K) l : suml (fun x => g x + h x) l = suml g l + suml h l.
Proof. induction l as [|x t IH]; simpl; [ring|rewrite IH; ring]. Qed.

Lemma suml_sub {A} (g h : A -> K) l : suml (fun x => g x - h x) l = suml g l - suml h l.
Proof. induction l as [|x t IH]; simpl; [ring|rewrite IH; ring]. Qed.

Lemma suml_scal {A} c (g : A -> K) l : suml (fun x => c * g x) l = c * suml g l.
Proof. induction l as [|x t IH]; simpl; [ring|rewrite IH; ring]. Qed.

Lemma suml_scal_r {A} c (g : A -> K) l : suml (fun x => g x * c) l = suml g l * c.
Proof. induction l as [|x t IH]; simpl; [ring|rewrite IH; ring]. Qed.

Lemma suml_zero {A} (g : A -> K) l : (forall x, In x l -> g x = 0) -> suml g l = 0.
Proof.
  intros H. induction l as [|x t IH]; simpl; [reflexivity|].
  rewrite H by (simpl; auto). rewrite IH by (intros; apply H; simpl; auto). ring.
Qed.

Lemma suml_map {A B} (f : A -> B) (g : B -> K) l : suml g (map f l) = suml (fun x => g (f x)) l.
Proof. induction l as [|x t IH]; simpl; [reflexivity|rewrite IH; reflexivity]. Qed.

Lemma suml_perm {A} (g : A -> K) l1 l2 : Permutation l1 l2 -> suml g l1 = suml g l2.
Proof. induction 1; simpl; [reflexivity|congruence|ring|congruence]. Qed.

Lemma suml_swap {A B} (g : A -> B -> K) l1 l2 :
  suml (fun x => suml (g x) l2) l1 = suml (fun y => suml (fun x => g x y) l1) l2.
Proof.
  induction l1 as [|x t IH]; simpl.
  - symmetry; apply suml_zero; reflexivity.
  - rewrite IH. rewrite <- suml_add. reflexivity.
Qed.

Lemma suml_filter {A} (p : A -> bool) (g : A -> K) l :
  (forall x, In x l -> p x = false -> g x = 0) -> suml g (filter p l) = suml g l.
Proof.
  induction l as [|x t IH]; simpl; intros H; [reflexivity|].
  destruct (p x) eqn:E; simpl; rewrite IH by auto; [reflexivity|].
  rewrite (H x) by auto. ring.
Qed.

(** a sum whose terms vanish except at one position *)
Lemma suml_single {A} (g : A -> K) l x :
  (forall a b : A, {a = b} + {a <> b}) ->
  NoDup l -> In x l -> (forall y, In y l -> y <> x -> g y = 0) -> suml g l = g x.
Proof.
  intros Hdec Hnd Hin H. induction l as [|y t IH]; [contradiction|].
  simpl. inversion Hnd as [|? ? Hny Hnd']; subst.
  destruct (Hdec y x) as [->|Hne].
  - rewrite (suml_zero g t). { ring. }
    intros z Hz. apply H; [right; exact Hz|]. intros ->; contradiction.
  - destruct Hin as [->|Hin]; [contradiction|].
    rewrite (H y) by (simpl; auto).
    rewrite IH; auto. { ring. }
    intros z Hz Hzx. apply H; simpl; auto.
Qed.

(** Scalar product of a finite vector with an infinite one. *)
Fixpoint dot (v : list K) (w : nat -> K) : K :=
  match v with
  | [] => 0
  | x :: t => x * w O + dot t (fun i => w (S i))
  end.

Lemma dot_ext v w1 w2 : (forall i, i < length v -> w1 i = w2 i) -> dot v w1 = dot v w2.
Proof.
  revert w1 w2. induction v as [|x t IH]; simpl; intros w1 w2 H; [reflexivity|].
  rewrite (H O) by lia. rewrite (IH _ (fun i => w2 (S i))); [reflexivity|].
  intros i Hi; apply H; lia.
Qed.

Lemma dot_app v1 v2 w : dot (v1 ++ v2) w = dot v1 w + dot v2 (fun i => w (length v1 + i)%nat).
Proof.
  revert w; induction v1 as [|x t IH]; simpl; intros w.
  - change (fun i => w i) with w. ring.
  - rewrite IH. ring.
Qed.

Lemma dot_zeros n w : dot (repeat 0 n) w = 0.
Proof. revert w; induction n as [|n IH]; simpl; intros w; [reflexivity|rewrite IH; ring]. Qed.

Lemma dot_add v w1 w2 : dot v (fun i => w1 i + w2 i) = dot v w1 + dot v w2.
Proof.
  revert w1 w2; induction v as [|x t IH]; simpl; intros; [ring|].
  rewrite (IH (fun i => w1 (S i)) (fun i => w2 (S i))); ring.
Qed.

Lemma dot_sub v w1 w2 : dot v (fun i => w1 i - w2 i) = dot v w1 - dot v w2.
Proof.
  revert w1 w2; induction v as [|x t IH]; simpl; intros; [ring|].
  rewrite (IH (fun i => w1 (S i)) (fun i => w2 (S i))); ring.
Qed.

Lemma dot_scal v c w : dot v (fun i => c * w i) = c * dot v w.
Proof.
  revert w; induction v as [|x t IH]; simpl; intros; [ring|].
  rewrite (IH (fun i => w (S i))); ring.
Qed.

Lemma dot_zero v w : (forall i, i < length v -> w i = 0) -> dot v w = 0.
Proof.
  revert w; induction v as [|x t IH]; simpl; intros w H; [reflexivity|].
  rewrite (H O) by lia. rewrite IH by (intros; apply H; lia). ring.
Qed.

Lemma dot_zero_l v w : (forall x, In x v -> x = 0) -> dot v w = 0.
Proof.
  revert w; induction v as [|x t IH]; simpl; intros w H; [reflexivity|].
  rewrite (H x) by auto. rewrite IH by auto. ring.
Qed.

Lemma dot_sum v w : dot v w = suml (fun i => nth i v 0 * w i) (seq 0 (length v)).
Proof.
  revert w; induction v as [|x t IH]; simpl; intros w; [reflexivity|].
  f_equal. rewrite IH. rewrite <- seq_shift, suml_map. reflexivity.
Qed.

Lemma dot_ones n w : dot (repeat 1 n) w = suml w (seq 0 n).
Proof.
  rewrite dot_sum, repeat_length. apply suml_ext. intros i Hi.
  apply in_seq in Hi. rewrite (nth_indep _ 0 1) by (rewrite repeat_length; lia).
  rewrite nth_repeat. ring.
Qed.

(** the i-th basis vector *)
Definition basis (i : nat) : nat -> K := fun j => if Nat.eqb i j then 1 else 0.

Lemma dot_basis v i : dot v (basis i) = nth i v 0.
Proof.
  rewrite dot_sum.
  destruct (Nat.lt_ge_cases i (length v)) as [H|H].
  - rewrite (suml_single _ _ i).
    + unfold basis. rewrite Nat.eqb_refl. ring.
    + exact Nat.eq_dec.
    + apply seq_NoDup.
    + apply in_seq; lia.
    + intros j _ Hj. unfold basis. destruct (Nat.eqb_spec i j); [congruence|]. ring.
  - rewrite nth_overflow by lia. apply suml_zero. intros j Hj.
    apply in_seq in Hj. unfold basis. destruct (Nat.eqb_spec i j); [lia|]. ring.
Qed.

(** update one coordinate *)
Definition upd (w : nat -> K) (k : nat) (x : K) : nat -> K :=
  fun j => if Nat.eqb j k then x else w j.

Lemma upd_same w k x : upd w k x k = x.
Proof. unfold upd; rewrite Nat.eqb_refl; reflexivity. Qed.

Lemma upd_other w k x j : j <> k -> upd w k x j = w j.
Proof. intros H. unfold upd. destruct (Nat.eqb_spec j k); congruence. Qed.

Lemma dot_upd_short v w k x : length v <= k -> dot v (upd w k x) = dot v w.
Proof. intros H. apply dot_ext. intros i Hi. apply upd_other; lia. Qed.

(** vectors as lists *)
Definition vec (u : list K) : nat -> K := fun i => nth i u 0.

Lemma dot_vec_comb v u :
  length v = length u ->
  dot v (vec u) = suml (fun p => fst p * snd p) (combine v u).
Proof.
  revert u; induction v as [|x t IH]; intros [|y u]; simpl; intros H; try discriminate; [reflexivity|].
  unfold vec in *. rewrite <- IH by congruence. reflexivity.
Qed.

Lemma suml_seq_vec u : suml (vec u) (seq 0 (length u)) = suml (fun x => x) u.
Proof.
  unfold vec. induction u as [|x t IH]; simpl; [reflexivity|].
  f_equal. rewrite <- IH. rewrite <- seq_shift, suml_map. reflexivity.
Qed.

End LinAlg.

Arguments suml {K A}.
Arguments dot {K}.
Arguments upd {K}.
Arguments vec {K}.
Arguments basis {K}.

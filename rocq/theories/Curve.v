(** The implementation of the trait [BilinearMap] for BLS12-381,
    /repo/src/core/bilinear_map/bls12_381.rs:217-331, over the operations of the
    external crate cosmian_bls12_381. The laws that the other files require of a
    bilinear map (Bilinear.v) are proved here from the contract of the crate: groups
    of prime order and a pairing. *)
From Coq Require Import String NArith ZArith Znumtheory Bool Lia Strings.Byte List.
From Verif Require Import Prelude Field Bilinear Zp ExpModel Primality Codec SchemeCodec Bls.
Import ListNotations.
Local Open Scope N_scope.

(** ** The operations of the crate that the file uses *)
Record curve := mkCurve {
  G1Projective : Type;
  G1Affine : Type;
  G2Projective : Type;
  G2Affine : Type;
  G2Prepared : Type;
  GtPoint : Type;
  MillerLoopResult : Type;
  G1_generator : G1Projective;                                  (* G1Projective::generator() *)
  G1p_mul : G1Projective -> zp bls_mod -> G1Projective;         (* G1Projective * Scalar *)
  G1a_mul : G1Affine -> zp bls_mod -> G1Projective;             (* &G1Affine * Scalar *)
  G1a_from : G1Projective -> G1Affine;                          (* G1Affine::from *)
  G2_generator : G2Projective;
  G2p_mul : G2Projective -> zp bls_mod -> G2Projective;
  G2a_mul : G2Affine -> zp bls_mod -> G2Projective;
  G2p_add : G2Projective -> G2Affine -> G2Projective;           (* G2Projective + &G2Affine *)
  G2p_from : G2Affine -> G2Projective;                          (* G2Projective::from *)
  G2a_from : G2Projective -> G2Affine;
  G2prep_from : G2Affine -> G2Prepared;                         (* G2Prepared::from *)
  Gt_generator : GtPoint;
  Gt_smul : GtPoint -> zp bls_mod -> GtPoint;
  Gt_add : GtPoint -> GtPoint -> GtPoint;
  Gt_sub : GtPoint -> GtPoint -> GtPoint;
  multi_miller_loop : list (G1Affine * G2Prepared) -> MillerLoopResult;
  final_exponentiation : MillerLoopResult -> GtPoint
}.

(** ** impl BilinearMap for Bls12_381, bls12_381.rs:224-331 *)
Section Implementation.
Variable C : curve.

(** g2_gen_exp, 263-265: [G1Affine::from(G1Projective::generator() * x.0)] *)
Definition bls_g2_gen_exp (x : zp bls_mod) : G1Affine C := G1a_from C (G1p_mul C (G1_generator C) x).

(** g1_gen_exp, 268-271 *)
Definition bls_g1_gen_exp (x : zp bls_mod) : G2Prepared C * G2Affine C :=
  let res := G2a_from C (G2p_mul C (G2_generator C) x) in (G2prep_from C res, res).

(** g3_gen_exp, 273-275 *)
Definition bls_g3_gen_exp (x : zp bls_mod) : G2Affine C := G2a_from C (G2p_mul C (G2_generator C) x).

(** g3_mul, 278-281 *)
Definition bls_g3_mul (a b : G2Affine C) : G2Prepared C * G2Affine C :=
  let res := G2a_from C (G2p_add C (G2p_from C a) b) in (G2prep_from C res, res).

(** g3_exp, 284-286 *)
Definition bls_g3_exp (a : G2Affine C) (x : zp bls_mod) : G2Affine C := G2a_from C (G2a_mul C a x).

(** g2_exp, 299-301 *)
Definition bls_g2_exp (a : G1Affine C) (x : zp bls_mod) : G1Affine C := G1a_from C (G1a_mul C a x).

(** prod_gt_exp, 320-330: [zip] stops at the shorter of the two sequences *)
Definition bls_prod_gt_exp (d_i : list (G2Prepared C)) (e_i : list (G1Affine C)) (a_i : list (zp bls_mod)) : GtPoint C :=
  let e_i_a_i := map (fun '(ei, ai) => G1a_from C (G1a_mul C ei ai)) (combine e_i a_i) in
  let terms := combine e_i_a_i d_i in
  final_exponentiation C (multi_miller_loop C terms).

(** The types of lines 225-229, the constants of 231-232 (in [bls_K]),
    msg_to_scalar of 249-260 (in Bls.v), g3_to_g1 of 289-291, and the operations on Gt
    of 294-317, which forward to the crate. *)
Definition bls_map : BilinearMap :=
  mkBilinearMap bls_K (G2Prepared C) (G1Affine C) (G2Affine C) (GtPoint C)
    (msg_scalar bls_scalar_form)
    bls_g1_gen_exp bls_g3_gen_exp bls_g3_mul bls_g3_exp
    bls_g2_gen_exp bls_g2_exp
    (Gt_smul C (Gt_generator C)) (Gt_smul C) (Gt_add C) (Gt_sub C)
    bls_prod_gt_exp (G2prep_from C).
End Implementation.

(** ** Commutative groups *)
Record group := mkGroup {
  gcar :> Type;
  gzero : gcar;
  gadd : gcar -> gcar -> gcar;
  gneg : gcar -> gcar
}.
Arguments gzero {_}.
Arguments gadd {_}.
Arguments gneg {_}.

Record group_laws (G : group) : Prop := mkGroupLaws {
  gl_assoc : forall a b c : G, gadd a (gadd b c) = gadd (gadd a b) c;
  gl_comm : forall a b : G, gadd a b = gadd b a;
  gl_zero : forall a : G, gadd gzero a = a;
  gl_neg : forall a : G, gadd a (gneg a) = gzero
}.

(** [times n p] is p + ... + p, n times *)
Definition times {G : group} (n : N) (p : G) : G := N.iter n (gadd p) gzero.

(** A cyclic group of prime order: every element is a multiple of the generator *)
Record cyclic (G : group) (g : G) : Prop := mkCyclic {
  cy_laws : group_laws G;
  cy_order : times (Z.to_N bls_r) g = gzero;
  cy_gen : forall p : G, exists n, p = times n g;
  cy_nonzero : g <> gzero
}.

(** sum of a list of elements *)
Definition gsum {G : group} (l : list G) : G := fold_right gadd gzero l.

Definition scal (x : zp bls_mod) : N := Z.to_N (zval x).

(** ** The contract of the crate *)
(** Affine and projective coordinates and prepared points stand for points of the
    curves (the subgroups of order r), and values of Gt for elements of the target
    group; equal points have equal affine coordinates. Operators compute the operations
    of the groups; [multi_miller_loop] followed by [final_exponentiation] is the
    sum of the pairings; the generator of Gt is the pairing of the generators. *)
Record contract (C : curve) := mkContract {
  E1 : group;
  E2 : group;
  ET : group;
  p1 : G1Projective C -> E1;
  a1 : G1Affine C -> E1;
  p2 : G2Projective C -> E2;
  a2 : G2Affine C -> E2;
  q2 : G2Prepared C -> E2;
  tv : GtPoint C -> ET;
  pairing : E1 -> E2 -> ET;
  k_a1_inj : forall a b, a1 a = a1 b -> a = b;
  k_a2_inj : forall a b, a2 a = a2 b -> a = b;
  k_tv_inj : forall a b, tv a = tv b -> a = b;
  k_cyclic1 : cyclic E1 (p1 (G1_generator C));
  k_cyclic2 : cyclic E2 (p2 (G2_generator C));
  k_cyclicT : cyclic ET (tv (Gt_generator C));
  k_p1_mul : forall p x, p1 (G1p_mul C p x) = times (scal x) (p1 p);
  k_a1_mul : forall a x, p1 (G1a_mul C a x) = times (scal x) (a1 a);
  k_a1_from : forall p, a1 (G1a_from C p) = p1 p;
  k_p2_mul : forall p x, p2 (G2p_mul C p x) = times (scal x) (p2 p);
  k_a2_mul : forall a x, p2 (G2a_mul C a x) = times (scal x) (a2 a);
  k_p2_add : forall p a, p2 (G2p_add C p a) = gadd (p2 p) (a2 a);
  k_p2_from : forall a, p2 (G2p_from C a) = a2 a;
  k_a2_from : forall p, a2 (G2a_from C p) = p2 p;
  k_q2_from : forall a, q2 (G2prep_from C a) = a2 a;
  k_t_mul : forall t x, tv (Gt_smul C t x) = times (scal x) (tv t);
  k_t_add : forall t u, tv (Gt_add C t u) = gadd (tv t) (tv u);
  k_t_sub : forall t u, tv (Gt_sub C t u) = gadd (tv t) (gneg (tv u));
  k_pair_l : forall p q r, pairing (gadd p q) r = gadd (pairing p r) (pairing q r);
  k_pair_r : forall p q r, pairing p (gadd q r) = gadd (pairing p q) (pairing p r);
  k_pair_gen : pairing (p1 (G1_generator C)) (p2 (G2_generator C)) = tv (Gt_generator C);
  k_miller : forall l, tv (final_exponentiation C (multi_miller_loop C l)) =
    gsum (map (fun t => pairing (a1 (fst t)) (q2 (snd t))) l)
}.

(** ** Multiples *)
Section Multiples.
Variable G : group.
Hypothesis GL : group_laws G.
Implicit Types (p q : G) (n m : N).

Lemma times_0 p : times 0 p = gzero.
Proof. reflexivity. Qed.

Lemma times_succ n p : times (N.succ n) p = gadd p (times n p).
Proof. unfold times. rewrite N.iter_succ. reflexivity. Qed.

Lemma add_0_r p : gadd p gzero = p.
Proof. rewrite (gl_comm G GL). apply (gl_zero G GL). Qed.

Lemma add_cancel p q (r : G) : gadd p r = gadd q r -> p = q.
Proof.
  intros E. apply (f_equal (fun x => gadd x (gneg r))) in E. rewrite <- !(gl_assoc G GL), (gl_neg G GL), !add_0_r in E. exact E.
Qed.

Lemma times_add n m p : times (n + m) p = gadd (times n p) (times m p).
Proof.
  induction n as [|n IH] using N.peano_ind.
  - rewrite N.add_0_l, times_0, (gl_zero G GL). reflexivity.
  - rewrite N.add_succ_l, !times_succ, IH. apply (gl_assoc G GL).
Qed.

Lemma times_zero n : times n (gzero : G) = gzero.
Proof. induction n as [|n IH] using N.peano_ind; [reflexivity|]. rewrite times_succ, IH. apply (gl_zero G GL). Qed.

Lemma times_mul n m p : times n (times m p) = times (n * m) p.
Proof.
  induction n as [|n IH] using N.peano_ind; [reflexivity|].
  rewrite N.mul_succ_l, times_succ, IH, N.add_comm. symmetry. apply times_add.
Qed.

Lemma times_1 p : times 1 p = p.
Proof. apply add_0_r. Qed.

Lemma gsum_app (l1 l2 : list G) : gsum (l1 ++ l2) = gadd (gsum l1) (gsum l2).
Proof.
  induction l1 as [|x t IH]; cbn [app gsum fold_right]; [symmetry; apply (gl_zero G GL)|].
  unfold gsum in *. rewrite IH. apply (gl_assoc G GL).
Qed.
End Multiples.

(** a map that respects addition respects multiples *)
Lemma hom_times (G H : group) (h : G -> H) : group_laws G -> group_laws H ->
  (forall a b, h (gadd a b) = gadd (h a) (h b)) -> forall n p, h (times n p) = times n (h p).
Proof.
  intros GL HL Hh. assert (H0 : h gzero = gzero).
  { apply (add_cancel H HL _ _ (h gzero)). rewrite <- Hh, !(gl_zero _ GL), (gl_zero _ HL). reflexivity. }
  induction n as [|n IH] using N.peano_ind; intros p; [exact H0|].
  rewrite !times_succ, Hh, IH. reflexivity.
Qed.

(** ** Exponents in a group of prime order *)
Section Exponents.
Variable G : group.
Variable g : G.
Hypothesis CY : cyclic G g.
Local Notation GL := (cy_laws G g CY).
Implicit Types (p : G) (n : N).

Lemma order_all p : times (Z.to_N bls_r) p = gzero.
Proof using CY.
  destruct (cy_gen G g CY p) as (n & ->). rewrite (times_mul G GL), N.mul_comm, <- (times_mul G GL), (cy_order G g CY).
  apply (times_zero G GL).
Qed.

Lemma times_mod n p : times (n mod Z.to_N bls_r) p = times n p.
Proof using CY.
  rewrite (N.div_mod n (Z.to_N bls_r)) at 2 by discriminate.
  rewrite (times_add G GL), N.mul_comm, <- (times_mul G GL), order_all, (times_zero G GL), (gl_zero _ GL). reflexivity.
Qed.

Lemma times_scal n p : times (scal (zmod bls_mod (Z.of_N n))) p = times n p.
Proof using CY.
  unfold scal. cbn [zmod zval]. rewrite <- (times_mod n). f_equal. change (mval bls_mod) with bls_r.
  rewrite Z2N.inj_mod by (try lia; discriminate). rewrite N2Z.id. reflexivity.
Qed.

Lemma scal_add (x y : zp bls_mod) p : times (scal (zp_add bls_mod x y)) p = gadd (times (scal x) p) (times (scal y) p).
Proof using CY.
  pose proof (bls_zval_range x). pose proof (bls_zval_range y).
  rewrite <- (times_add G GL). unfold zp_add. rewrite <- (times_scal (scal x + scal y)). unfold scal.
  rewrite N2Z.inj_add, !Z2N.id by lia. reflexivity.
Qed.

Lemma scal_mul (x y : zp bls_mod) p : times (scal (zp_mul bls_mod x y)) p = times (scal y) (times (scal x) p).
Proof using CY.
  pose proof (bls_zval_range x). pose proof (bls_zval_range y).
  rewrite (times_mul G GL), N.mul_comm. unfold zp_mul. rewrite <- (times_scal (scal x * scal y)). unfold scal.
  rewrite N2Z.inj_mul, !Z2N.id by lia. reflexivity.
Qed.

Lemma scal_0 p : times (scal (zmod bls_mod 0)) p = gzero.
Proof using CY. exact (times_scal 0 p). Qed.

Lemma scal_sub (x y : zp bls_mod) p : times (scal (zp_sub bls_mod x y)) p = gadd (times (scal x) p) (gneg (times (scal y) p)).
Proof using CY.
  apply (add_cancel G GL _ _ (times (scal y) p)). rewrite <- scal_add.
  rewrite <- (gl_assoc _ GL), (gl_comm _ GL (gneg _)), (gl_neg _ GL), (add_0_r G GL). f_equal. f_equal. apply zp_eq.
  unfold zp_add, zp_sub. cbn [zmod zval].
  rewrite Zplus_mod_idemp_l. replace (zval x - zval y + zval y)%Z with (zval x) by lia.
  apply Z.mod_small. apply bls_zval_range.
Qed.

Lemma scal_inj (x y : zp bls_mod) : times (scal x) g = times (scal y) g -> x = y.
Proof using CY.
  intros E. assert (D : times (scal (zp_sub bls_mod x y)) g = gzero) by (rewrite scal_sub, E; apply (gl_neg _ GL)).
  destruct (Z.eq_dec (zval (zp_sub bls_mod x y)) 0) as [Z0|Z0].
  - unfold zp_sub in Z0. cbn [zmod zval] in Z0.
    apply Z.mod_divide in Z0; [|discriminate]. apply zp_eq. pose proof (bls_zval_range x). pose proof (bls_zval_range y).
    destruct Z0 as (k & Z0). change (mval bls_mod) with bls_r in Z0 at 3. assert (k = 0)%Z by nia. lia.
  - exfalso. apply (cy_nonzero G g CY). set (d := zp_sub bls_mod x y) in *. pose proof (bls_zval_range d) as R.
    assert (I : times (scal (zp_mul bls_mod d (zp_inv bls_mod d))) g = gzero).
    { rewrite scal_mul, D. apply (times_zero G GL). }
    assert (O : zp_mul bls_mod d (zp_inv bls_mod d) = zmod bls_mod 1).
    { pose proof bls_K_laws as [FL _ _]. destruct FL as [RT _ _ FI]. destruct RT. cbn in FI, Rmul_comm.
      rewrite Rmul_comm. apply FI. intros Q. apply Z0. rewrite Q. reflexivity. }
    rewrite O in I. rewrite <- (times_1 G GL g). rewrite <- I. symmetry. exact (times_scal 1 g).
Qed.

Lemma scal_surj p : exists x, p = times (scal x) g.
Proof using CY. destruct (cy_gen G g CY p) as (n & ->). exists (zmod bls_mod (Z.of_N n)). symmetry. apply times_scal. Qed.
End Exponents.

(** ** The laws of the bilinear map *)
Section Laws.
Variable C : curve.
Variable H : contract C.
Local Notation L1 := (cy_laws _ _ (k_cyclic1 C H)).
Local Notation L2 := (cy_laws _ _ (k_cyclic2 C H)).
Local Notation LT := (cy_laws _ _ (k_cyclicT C H)).

Lemma pair_times x y p q : pairing C H (times x p) (times y q) = times (x * y) (pairing C H p q).
Proof.
  rewrite (hom_times _ _ (fun p => pairing C H p (times y q)) L1 LT (fun a b => k_pair_l C H a b _)).
  rewrite (hom_times _ _ (fun q => pairing C H p q) L2 LT (fun a b => k_pair_r C H _ a b)).
  apply (times_mul _ LT).
Qed.

(** what [prod_gt_exp] computes, whatever the lengths of its arguments *)
Lemma prod_value d e a : tv C H (bls_prod_gt_exp C d e a) =
  gsum (map (fun t => times (scal (snd (fst t))) (pairing C H (a1 C H (fst (fst t))) (q2 C H (snd t)))) (combine (combine e a) d)).
Proof.
  unfold bls_prod_gt_exp. rewrite (k_miller C H). f_equal. generalize (combine e a). clear e a. intros l. revert d.
  induction l as [|[ei ai] l IH]; intros d; [reflexivity|]. destruct d as [|di d]; [reflexivity|].
  cbn [map combine fst snd]. rewrite IH. f_equal. rewrite (k_a1_from C H), (k_a1_mul C H).
  rewrite (hom_times _ _ (fun p => pairing C H p (q2 C H di)) L1 LT (fun a b => k_pair_l C H a b _)). reflexivity.
Qed.

Lemma a1_gen x : a1 C H (bls_g2_gen_exp C x) = times (scal x) (p1 C H (G1_generator C)).
Proof. unfold bls_g2_gen_exp. rewrite (k_a1_from C H). apply (k_p1_mul C H). Qed.
Lemma a2_gen x : a2 C H (bls_g3_gen_exp C x) = times (scal x) (p2 C H (G2_generator C)).
Proof. unfold bls_g3_gen_exp. rewrite (k_a2_from C H). apply (k_p2_mul C H). Qed.

Theorem bls_map_laws : BilinearLaws (bls_map C).
Proof.
  constructor; cbn [bls_map bm_K g1_gen_exp g3_gen_exp g3_mul g3_exp g2_gen_exp g2_exp gt_gen_exp gt_exp gt_mul gt_div prod_gt_exp g3_to_g1 Bilinear.G1 Bilinear.G2 Bilinear.G3 Gt];
    change (@fadd bls_K) with (zp_add bls_mod); change (@fmul bls_K) with (zp_mul bls_mod); change (@fsub bls_K) with (zp_sub bls_mod);
    change (@f0 bls_K) with (zmod bls_mod 0).
  - exact bls_K_laws.
  - reflexivity.
  - intros a b. unfold bls_g3_mul. assert (E : G2a_from C (G2p_add C (G2p_from C (bls_g3_gen_exp C a)) (bls_g3_gen_exp C b)) = bls_g3_gen_exp C (zp_add bls_mod a b)).
    { apply (k_a2_inj C H). rewrite (k_a2_from C H), (k_p2_add C H), (k_p2_from C H), !a2_gen.
      symmetry. apply (scal_add _ _ (k_cyclic2 C H)). }
    cbv zeta. rewrite E. reflexivity.
  - intros a x. apply (k_a2_inj C H). unfold bls_g3_exp. rewrite (k_a2_from C H), (k_a2_mul C H), !a2_gen.
    symmetry. apply (scal_mul _ _ (k_cyclic2 C H)).
  - intros a x. apply (k_a1_inj C H). unfold bls_g2_exp. rewrite (k_a1_from C H), (k_a1_mul C H), !a1_gen.
    symmetry. apply (scal_mul _ _ (k_cyclic1 C H)).
  - intros a x. apply (k_tv_inj C H). rewrite !(k_t_mul C H). symmetry. apply (scal_mul _ _ (k_cyclicT C H)).
  - intros a b. apply (k_tv_inj C H). rewrite (k_t_add C H), !(k_t_mul C H). symmetry. apply (scal_add _ _ (k_cyclicT C H)).
  - intros a b. apply (k_tv_inj C H). rewrite (k_t_sub C H), !(k_t_mul C H). symmetry. apply (scal_sub _ _ (k_cyclicT C H)).
  - intros l. apply (k_tv_inj C H). rewrite prod_value, (k_t_mul C H).
    induction l as [|[[d e] a] l IH].
    + symmetry. apply (scal_0 _ _ (k_cyclicT C H)).
    + cbn [map combine fst snd fold_right gsum]. fold (@gsum (ET C H)).
      change (fold_right gadd gzero ?x) with (gsum x). rewrite IH.
      rewrite (scal_add _ _ (k_cyclicT C H)). f_equal.
      rewrite (k_q2_from C H), a1_gen, a2_gen, pair_times, (k_pair_gen C H).
      rewrite !(scal_mul _ _ (k_cyclicT C H)), !(times_mul _ LT). f_equal. lia.
  - intros p. destruct (scal_surj _ _ (k_cyclic1 C H) (a1 C H p)) as (x & E). exists x. apply (k_a1_inj C H). rewrite a1_gen. exact E.
  - intros p. destruct (scal_surj _ _ (k_cyclic2 C H) (a2 C H p)) as (x & E). exists x. apply (k_a2_inj C H). rewrite a2_gen. exact E.
  - intros p. destruct (scal_surj _ _ (k_cyclicT C H) (tv C H p)) as (x & E). exists x. apply (k_tv_inj C H). rewrite (k_t_mul C H). exact E.
  - intros x y E. apply (scal_inj _ _ (k_cyclic1 C H)). rewrite <- !a1_gen, E. reflexivity.
  - intros x y E. apply (scal_inj _ _ (k_cyclic2 C H)). rewrite <- !a2_gen, E. reflexivity.
  - intros x y E. apply (scal_inj _ _ (k_cyclicT C H)). rewrite <- !(k_t_mul C H), E. reflexivity.
Qed.
End Laws.

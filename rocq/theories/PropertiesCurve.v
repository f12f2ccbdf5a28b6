(** The scheme over BLS12-381: C89. *)
From Coq Require Import String NArith ZArith Znumtheory Bool Lia Strings.Byte List.
From Verif Require Import Prelude Field LinAlg Msp Spec MspProofs Bilinear Scheme SchemeSpec SchemeProofs SchemeTheorems
  Zp ExpModel Primality Codec SchemeCodec Bls Curve PropertiesScheme.
Import ListNotations.
Local Open Scope N_scope.

(** ** C89 *)
Section Curve.
Variable C : curve.
Variable H : contract C.

(** [prod_gt_exp] gives the product of the pairings raised to the coefficients, over
    the entries present in all three lists. *)
Theorem C89_product d e a : tv C H (prod_gt_exp (bls_map C) d e a) =
  gsum (map (fun t => times (scal (snd (fst t))) (pairing C H (a1 C H (fst (fst t))) (q2 C H (snd t))))
            (combine (combine e a) d)).
Proof. apply prod_value. Qed.

(** Both components of [g1_gen_exp] and of [g3_mul] stand for the same point. *)
Theorem C89_prepared : (forall x, q2 C H (fst (g1_gen_exp (bls_map C) x)) = a2 C H (snd (g1_gen_exp (bls_map C) x))) /\
  (forall a b, q2 C H (fst (g3_mul (bls_map C) a b)) = a2 C H (snd (g3_mul (bls_map C) a b)) /\
               a2 C H (snd (g3_mul (bls_map C) a b)) = gadd (a2 C H a) (a2 C H b)).
Proof.
  split; [intros x; apply (k_q2_from C H)|]. intros a b. split; [apply (k_q2_from C H)|].
  cbn [bls_map g3_mul]. unfold bls_g3_mul. cbn [snd]. rewrite (k_a2_from C H), (k_p2_add C H), (k_p2_from C H). reflexivity.
Qed.

(** The interface the scheme is written against holds. *)
Theorem C89_laws : BilinearLaws (bls_map C).
Proof. exact (bls_map_laws C H). Qed.

(** So access is exact for keys and ciphertexts over the curve. *)
Theorem C89_access P size (mdraw : nat -> zp bls_mod) mk f uk (msg : GtPoint C) gam (s : zp bls_mod) ct :
  @generate_master_key (bls_map C) size mdraw = Ok mk ->
  derived (bls_map C) P mk f uk ->
  @encrypt (bls_map C) P msg gam (pub_key mk) s = Ok ct ->
  (holds (attrs gam) f /\ decrypt ct uk = Ok (Some msg)) \/
  (~ holds (attrs gam) f /\ (decrypt ct uk = Ok None \/ is_err (decrypt ct uk))).
Proof using H.
  intros Hmk Hd He.
  destruct (C14_delegation_chains_stay_exact (bls_map C) (bls_map_laws C H) P size mdraw mk f uk msg gam s ct Hmk Hd He)
    as [?|[(Hn & _ & E)|(Hn & _ & E)]]; [left; assumption|right; split; [exact Hn|left; exact E]|].
  right. split; [exact Hn|]. right. rewrite E. eexists. reflexivity.
Qed.
End Curve.

(** ** A curve that meets the contract: points are their exponents *)
Definition zg : group := mkGroup (zp bls_mod) (zmod bls_mod 0) (zp_add bls_mod) (zp_neg bls_mod).
Definition exp_curve : curve :=
  mkCurve (zp bls_mod) (zp bls_mod) (zp bls_mod) (zp bls_mod) (zp bls_mod) (zp bls_mod) (zp bls_mod)
    (zmod bls_mod 1) (zp_mul bls_mod) (zp_mul bls_mod) (fun p => p)
    (zmod bls_mod 1) (zp_mul bls_mod) (zp_mul bls_mod) (zp_add bls_mod) (fun p => p) (fun p => p) (fun p => p)
    (zmod bls_mod 1) (zp_mul bls_mod) (zp_add bls_mod) (zp_sub bls_mod)
    (fun l => fold_right (zp_add bls_mod) (zmod bls_mod 0) (map (fun t => zp_mul bls_mod (fst t) (snd t)) l))
    (fun r => r).

Lemma zg_laws : group_laws zg.
Proof.
  destruct (zp_ring bls_mod). constructor; cbn [zg gcar gzero gadd gneg]; intros.
  - apply Radd_assoc.
  - apply Radd_comm.
  - apply Radd_0_l.
  - apply Ropp_def.
Qed.

Lemma zg_times n (p : zp bls_mod) : @times zg n p = zmod bls_mod (Z.of_N n * zval p).
Proof.
  induction n as [|n IH] using N.peano_ind; [reflexivity|].
  rewrite times_succ, IH. cbn [zg gadd]. apply zp_eq. unfold zp_add. cbn [zmod zval].
  rewrite Zplus_mod_idemp_r. f_equal. lia.
Qed.

Lemma zg_scal x (p : zp bls_mod) : zp_mul bls_mod p x = @times zg (scal x) p.
Proof.
  rewrite zg_times. unfold scal. pose proof (bls_zval_range x). rewrite Z2N.id by lia.
  unfold zp_mul. f_equal. lia.
Qed.

Lemma zg_cyclic : cyclic zg (zmod bls_mod 1).
Proof.
  constructor.
  - exact zg_laws.
  - rewrite zg_times. vm_compute. reflexivity.
  - intros p. exists (scal p). rewrite <- zg_scal. destruct (zp_ring bls_mod). symmetry. apply Rmul_1_l.
  - intros E. apply (f_equal (@zval bls_mod)) in E. vm_compute in E. discriminate.
Qed.

Definition exp_contract : contract exp_curve.
Proof.
  refine (mkContract exp_curve zg zg zg (fun p => p) (fun p => p) (fun p => p) (fun p => p) (fun p => p) (fun p => p)
    (zp_mul bls_mod) _ _ _ zg_cyclic zg_cyclic zg_cyclic _ _ _ _ _ _ _ _ _ _ _ _ _ _ _ _);
    destruct (zp_ring bls_mod); cbn; auto using zg_scal.
  - intros p q r. rewrite !(Rmul_comm p). apply Rdistr_l.
Defined.

(** keys and a ciphertext over this curve, with the order of BLS12-381 *)
Definition c_draw (i : nat) : zp bls_mod := zmod bls_mod (1000003 ^ (3 + Z.of_nat i)).
Definition c_mk : master_key (bls_map exp_curve) :=
  run (@mkMaster (bls_map exp_curve) (@mkPriv (bls_map exp_curve) [] (c_draw 0)) (@mkPub (bls_map exp_curve) [] (c_draw 0)) (@mkDel (bls_map exp_curve) [])) (@generate_master_key (bls_map exp_curve) 10 c_draw).
Definition c_uk : decryption_key (bls_map exp_curve) :=
  run (@mkDec (bls_map exp_curve) [] [] (mkMsp 0 0 [] [] [])) (@key_generation (bls_map exp_curve) ex_m (priv_key c_mk) (fun i => c_draw (20 + i))).
Definition c_msg : zp bls_mod := zmod bls_mod 123456789.
Definition c_ct (gam : list N) : ciphertext (bls_map exp_curve) :=
  run (@mkCt (bls_map exp_curve) [] c_msg []) (@encrypt (bls_map exp_curve) pf c_msg gam (pub_key c_mk) (c_draw 40)).

(** tests that compute, since comparing terms over this curve does not *)
Definition okb {A} (o : outcome A) : bool := match o with Ok _ => true | _ => false end.
Definition gives (o : outcome (option (zp bls_mod))) (x : option (zp bls_mod)) : bool :=
  match o, x with
  | Ok (Some a), Some b => zp_eqb bls_mod a b
  | Ok None, None => true
  | _, _ => false
  end.
Lemma run_ok {A} (d : A) o : okb o = true -> o = Ok (run d o).
Proof. destruct o; [reflexivity|discriminate|discriminate]. Qed.
Lemma gives_ok o x : gives o x = true -> o = Ok x.
Proof.
  destruct o as [[a|]| |], x as [b|]; cbn [gives]; try discriminate; [|reflexivity].
  intros E. apply Z.eqb_eq in E. apply zp_eq in E. subst. reflexivity.
Qed.
Local Ltac compute_true := vm_cast_no_check (eq_refl true).

Example C89_example :
  @generate_master_key (bls_map exp_curve) 10 c_draw = Ok c_mk /\
  @key_generation (bls_map exp_curve) ex_m (priv_key c_mk) (fun i => c_draw (20 + i)) = Ok c_uk /\
  @encrypt (bls_map exp_curve) pf c_msg [1; 4] (pub_key c_mk) (c_draw 40) = Ok (c_ct [1; 4]) /\
  decrypt (c_ct [1; 4]) c_uk = Ok (Some c_msg) /\
  @encrypt (bls_map exp_curve) pf c_msg [1; 2] (pub_key c_mk) (c_draw 40) = Ok (c_ct [1; 2]) /\
  decrypt (c_ct [1; 2]) c_uk = Ok None.
Proof.
  split; [cbv delta [c_mk c_uk c_ct] beta; refine (run_ok _ _ _); compute_true|]. split; [cbv delta [c_mk c_uk c_ct] beta; refine (run_ok _ _ _); compute_true|]. split; [cbv delta [c_mk c_uk c_ct] beta; refine (run_ok _ _ _); compute_true|].
  split; [apply gives_ok; compute_true|]. split; [cbv delta [c_mk c_uk c_ct] beta; refine (run_ok _ _ _); compute_true|]. apply gives_ok. compute_true.
Qed.

Print Assumptions C89_product.
Print Assumptions C89_prepared.
Print Assumptions C89_laws.
Print Assumptions C89_access.

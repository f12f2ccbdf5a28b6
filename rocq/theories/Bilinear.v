(** The interface [BilinearMap] of the groups, /repo/src/core/bilinear_map/mod.rs:16-124,
    and the laws of a bilinear map of prime order. *)
From Coq Require Import String NArith ZArith Bool Strings.Byte List.
From Verif Require Import Prelude Field.
Import ListNotations.

(** Associated types and functions of the trait. The random generators are not
    here: the functions of the scheme take the drawn values as arguments.
    mod.rs:16-91. *)
Record BilinearMap := mkBilinearMap {
  bm_K :> FieldOps;                              (* type Scalar, ZERO, ONE: 18-42 *)
  G1 : Type;                                     (* 30 *)
  G2 : Type;                                     (* 33 *)
  G3 : Type;                                     (* 36 *)
  Gt : Type;                                     (* 39 *)
  msg_to_scalar : list byte -> outcome bm_K;     (* 59 *)
  g1_gen_exp : bm_K -> G1 * G3;                  (* 63 *)
  g3_gen_exp : bm_K -> G3;                       (* 64 *)
  g3_mul : G3 -> G3 -> G1 * G3;                  (* 66 *)
  g3_exp : G3 -> bm_K -> G3;                     (* 68 *)
  g2_gen_exp : bm_K -> G2;                       (* 71 *)
  g2_exp : G2 -> bm_K -> G2;                     (* 74 *)
  gt_gen_exp : bm_K -> Gt;                       (* 77 *)
  gt_exp : Gt -> bm_K -> Gt;                     (* 80 *)
  gt_mul : Gt -> Gt -> Gt;                       (* 83 *)
  gt_div : Gt -> Gt -> Gt;                       (* 86 *)
  prod_gt_exp : list G1 -> list G2 -> list bm_K -> Gt; (* 89 *)
  g3_to_g1 : G3 -> G1                            (* 91 *)
}.

(** What is required of an instance. All groups are cyclic of the same prime
    order (every element is a power of the generator) and [prod_gt_exp] is
    Π e(d_i,e_i)^α_i for a bilinear e. This is the meaning the comments of the
    trait give to the functions; that the BLS12-381 crate meets it is assumed
    (see DESIGN.md). *)
Record BilinearLaws (B : BilinearMap) : Prop := mkBilinearLaws {
  bl_field : FieldLaws B;
  bl_g1_gen : forall x, g1_gen_exp B x = (g3_to_g1 B (g3_gen_exp B x), g3_gen_exp B x);
  bl_g3_mul : forall a b, g3_mul B (g3_gen_exp B a) (g3_gen_exp B b)
      = (g3_to_g1 B (g3_gen_exp B (fadd a b)), g3_gen_exp B (fadd a b));
  bl_g3_exp : forall a x, g3_exp B (g3_gen_exp B a) x = g3_gen_exp B (fmul a x);
  bl_g2_exp : forall a x, g2_exp B (g2_gen_exp B a) x = g2_gen_exp B (fmul a x);
  bl_gt_exp : forall a x, gt_exp B (gt_gen_exp B a) x = gt_gen_exp B (fmul a x);
  bl_gt_mul : forall a b, gt_mul B (gt_gen_exp B a) (gt_gen_exp B b) = gt_gen_exp B (fadd a b);
  bl_gt_div : forall a b, gt_div B (gt_gen_exp B a) (gt_gen_exp B b) = gt_gen_exp B (fsub a b);
  bl_prod : forall l : list (bm_K B * bm_K B * bm_K B),
      prod_gt_exp B (map (fun x => g3_to_g1 B (g3_gen_exp B (fst (fst x)))) l)
                    (map (fun x => g2_gen_exp B (snd (fst x))) l)
                    (map (fun x => snd x) l)
      = gt_gen_exp B (fold_right (fun x s => fadd (fmul (fmul (fst (fst x)) (snd (fst x))) (snd x)) s) f0 l);
  bl_g2_surj : forall g, exists x, g = g2_gen_exp B x;
  bl_g3_surj : forall g, exists x, g = g3_gen_exp B x;
  bl_gt_surj : forall g, exists x, g = gt_gen_exp B x;
  bl_g2_inj : forall x y, g2_gen_exp B x = g2_gen_exp B y -> x = y;
  bl_g3_inj : forall x y, g3_gen_exp B x = g3_gen_exp B y -> x = y;
  bl_gt_inj : forall x y, gt_gen_exp B x = gt_gen_exp B y -> x = y
}.

(** [msg_to_gt], mod.rs:115-118. *)
Definition msg_to_gt (B : BilinearMap) (msg : list byte) : outcome (Gt B) :=
  let* scl := msg_to_scalar B msg in Ok (gt_gen_exp B scl).

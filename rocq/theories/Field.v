(** Scalars: the operations the code uses on G::Scalar and their laws. *)
From Coq Require Import List NArith ZArith Bool Lia Field_theory Ring_theory Field InitialRing.
From Verif Require Import Prelude.
Import ListNotations.

(** Operations required from [BilinearMap::Scalar] and the constants ZERO and ONE,
    /repo/src/core/bilinear_map/mod.rs:16-42. [inv] is [invert().unwrap()] of
    bls12_381.rs:62-66 without the panic; the panic is in [sdiv] below. *)
Record FieldOps := mkFieldOps {
  car :> Type;
  f0 : car;
  f1 : car;
  fadd : car -> car -> car;
  fsub : car -> car -> car;
  fmul : car -> car -> car;
  fneg : car -> car;
  finv : car -> car;
  feqb : car -> car -> bool;
  of_i32 : Z -> car
}.

Arguments f0 {_}.
Arguments f1 {_}.
Arguments fadd {_}.
Arguments fsub {_}.
Arguments fmul {_}.
Arguments fneg {_}.
Arguments finv {_}.
Arguments feqb {_}.
Arguments of_i32 {_}.

(** [Div for Scalar], /repo/src/core/bilinear_map/bls12_381.rs:58-66:
    [invert().unwrap()] panics on zero. *)
Definition sdiv {K : FieldOps} (a b : K) : outcome K :=
  if feqb b f0 then Panic DivisionByZero else Ok (fmul a (finv b)).

(** The canonical image of an integer. *)
Definition of_Z {K : FieldOps} (z : Z) : K :=
  gen_phiZ f0 f1 fadd fmul fneg z.

(** Laws: a field with decidable equality, and [From<i32>] is the canonical map
    on i32 values. *)
Record FieldLaws (K : FieldOps) : Prop := mkFieldLaws {
  fl_field : field_theory (@f0 K) f1 fadd fmul fsub fneg (fun a b => fmul a (finv b)) finv eq;
  fl_eqb : forall a b : K, feqb a b = true <-> a = b;
  fl_i32 : forall z, i32_range z -> of_i32 z = @of_Z K z
}.

(** Vocabulary of the statements about the scheme. *)
From Coq Require Import NArith ZArith List.
From Verif Require Import Prelude Field Msp Spec Bilinear Scheme.
Import ListNotations.

(** Column [j] of the linear combination of the rows with the given coefficients. *)
Definition combination {K : FieldOps} (l : list (K * list K)) (j : nat) : K :=
  fold_right (fun p acc => fadd (fmul (fst p) (nth j (snd p) f0)) acc) f0 l.

(** The coefficients combine the rows to the all-ones vector of width [n]. *)
Definition gives_ones {K : FieldOps} (coefs : list K) (rows : list (list K)) (n : nat) : Prop :=
  forall j, j < n -> combination (combine coefs rows) j = f1.

(** The rows of the program labelled by attributes of [S] span the all-ones
    vector over the field [K]. *)
Definition spans (K : FieldOps) (m : msp Z) (S : N -> Prop) : Prop :=
  exists coef : N -> K, (forall a, coef a <> f0 -> S a) /\
    forall j, j < nb_col m ->
      combination (map (fun p => (coef (fst p), map of_i32 (snd p)))
                       (combine (row_to_attr m) (matrix m))) j = f1.

(** Length of something that exists in memory: it is a usize. *)
Definition fits (P : platform) (n : nat) : Prop := (N.of_nat n < usize_modulus P)%N.

(** The key and the ciphertext have an attribute in common. *)
Definition shares_attr (f : node) (gam : list N) : Prop := exists a, In a gam /\ In a (leaves f).

(** Attributes of the ciphertext that the key knows, in the order of the ciphertext. *)
Definition known (f : node) (gam : list N) : list N :=
  filter (fun a => existsb (N.eqb a) (leaves f)) gam.

Section Keys.
Variable B : BilinearMap.
Variable P : platform.
Variable mk : master_key B.

(** The keys that can be had under a master key: generated for a formula, then
    delegated to any formulas and randomised, any number of times. *)
Inductive obtained : node -> decryption_key B -> Prop :=
| ob_gen f m draw uk :
    to_msp P f = Ok m -> key_generation m (priv_key mk) draw = Ok uk -> obtained f uk
| ob_del f uk f' m' draw uk' :
    obtained f uk -> to_msp P f' = Ok m' ->
    abe_key_delegation (Some m') uk (del_key mk) draw = Ok uk' -> obtained f' uk'
| ob_rand f uk draw uk' :
    obtained f uk -> abe_key_delegation None uk (del_key mk) draw = Ok uk' -> obtained f uk'.

(** The same with delegation to narrower policies only. *)
Inductive derived : node -> decryption_key B -> Prop :=
| de_gen f m draw uk :
    to_msp P f = Ok m -> key_generation m (priv_key mk) draw = Ok uk -> derived f uk
| de_del f uk f' m' draw uk' :
    derived f uk -> narrows f' f \/ restricts f' f -> to_msp P f' = Ok m' ->
    abe_key_delegation (Some m') uk (del_key mk) draw = Ok uk' -> derived f' uk'
| de_rand f uk draw uk' :
    derived f uk -> abe_key_delegation None uk (del_key mk) draw = Ok uk' -> derived f uk'.
End Keys.

(** The group elements of a key for an attribute. *)
Definition element {B : BilinearMap} (uk : decryption_key B) (a : N) : option (G3 B * G1 B) :=
  match get_row_from_attr (dk_msp uk) a with
  | Some r => match nth_error (raw_d uk) r, nth_error (d_i uk) r with
              | Some x, Some z => Some (x, z)
              | _, _ => None end
  | None => None
  end.

(** Random draws moved by an offset. *)
Definition shift {K : FieldOps} (draw delta : nat -> K) : nat -> K := fun i => fadd (draw i) (delta i).

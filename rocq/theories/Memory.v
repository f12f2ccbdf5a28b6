(** The memory that the readers of keys and ciphertexts ask for: the functions of
    Codec.v and SchemeCodec.v with a count of the bytes allocated. Model only; that
    they return what those functions return is C136_result. *)
From Coq Require Import String NArith ZArith Bool Strings.Byte List.
From Verif Require Import Prelude Field Msp Bilinear Scheme Codec SchemeCodec.
Import ListNotations.
Local Open Scope N_scope.

(** an outcome, and the bytes asked for on the way; nothing is given back before the end.
    The texts of errors (less than 100 bytes) are not counted. *)
Definition metered (A : Type) : Type := (outcome A * N)%type.
Definition free {A} (x : outcome A) : metered A := (x, 0).
Definition mbind {A B} (m : metered A) (k : A -> metered B) : metered B :=
  match fst m with
  | Ok a => let r := k a in (fst r, snd m + snd r)
  | Err e => (Err e, snd m)
  | Panic p => (Panic p, snd m)
  end.
Notation "'let$' x ':=' m 'in' k" := (mbind m (fun x => k))
  (at level 200, x pattern, m at level 100, k at level 200, right associativity) : outcome_scope.
Fixpoint mmapM {A B} (f : A -> metered B) (l : list A) : metered (list B) :=
  match l with
  | [] => free (Ok [])
  | x :: t => let$ y := f x in let$ ys := mmapM f t in free (Ok (y :: ys))
  end.
Definition charge (n : N) : metered unit := (Ok tt, n).
(** Vec::with_capacity([n]) for elements of [size] bytes, to which at least one element
    is pushed: the standard library then takes room for four if [n] is zero *)
Definition takes (P : platform) (n size : N) : metered unit :=
  (reserve P (n * size), if n =? 0 then 4 * size else n * size).

Section Vectors.
Variable P : platform.
Context {A : Type}.
Variable c : codec A.

(** Vec<T>::try_from_bytes, mod.rs:63-100, see vec_dec; the reservation is that of line 92.
    The elements themselves ask for no further memory: they are integers and points. *)
Definition vec_read (bytes : list byte) : metered (list A) :=
  match bytes with
  | [] => free (Ok [])
  | _ =>
      if blen bytes <=? 4 then free (Err (Deserialization "deserializing element failed. Data are too small. Data altered?"))
      else
        let len := from_be (firstn 4 bytes) in
        if u32_MAX <=? len then free (Err (Deserialization "deserializing element failed. Data altered?"))
        else
          let$ t0 := free (slice_fromN bytes 4) in
          let$ res0 := free (dec c t0) in
          let k := clen c res0 in
          let$ len1 := free (usize_sub P len 1) in
          let$ m := free (usize_mul P len1 k) in
          let$ limit := free (usize_add P 4 m) in
          if blen bytes <=? limit then free (Err (Deserialization "deserializing element failed. Data altered?"))
          else
            let$ _ := takes P len (msize c) in
            let$ rest := free (mapM (fun i =>
                let* beg := usize_mul P i k in
                let* from := usize_add P 4 beg in
                let* t := slice_fromN bytes from in
                dec c t) (range 1 len)) in
            free (Ok (res0 :: rest))
  end.
End Vectors.

Section Programs.
Variable P : platform.
Context {I : Type}.
Variable c : codec I.

(** MonotoneSpanProgram::try_from_bytes, msp.rs:45-102, see msp_dec; the reservations are
    those of lines 61, 62, 74 and 75, and of line 88 for each further row *)
Definition msp_read (bytes : list byte) : metered (msp I) :=
  if blen bytes <? 8 then free (Err (InvalidSize "minimum len of 8 bytes is required for MSP"))
  else
    let nr := from_be (firstn 4 bytes) in
    let nc := from_be (firstn 4 (skipn 4 bytes)) in
    let$ a := free (usize_mul P 4 nr) in
    let$ base := free (usize_add P 8 a) in
    if blen bytes <? base then free (Err (InvalidSize "invalid MSP size read from bytes"))
    else
      let$ _ := takes P nr 4 in
      let$ _ := (reserve P (table_bytes P nr), table_bytes P nr) in
      let$ (a2r, r2a) := free (read_attrs P bytes (range 0 nr) [] []) in
      let$ _ := takes P nr (3 * word P) in
      let$ _ := takes P nc (msize c) in
      let$ t := free (slice_fromN bytes base) in
      let$ x0 := free (dec c t) in
      let k := clen c x0 in
      let$ n1 := free (usize_mul P nr nc) in
      let$ n2 := free (usize_mul P n1 k) in
      let$ limit := free (usize_add P base n2) in
      if blen bytes <? limit then free (Err (InvalidSize "invalid matrix size read from bytes"))
      else
        let$ row0 := free (mapM (fun col => read_entry P c bytes base col k) (range 1 nc)) in
        let$ rows := mmapM (fun r =>
            let$ _ := charge (nc * msize c) in
            free (mapM (fun col =>
              let* p := usize_mul P r nc in
              let* p := usize_add P p col in
              read_entry P c bytes base p k) (range 0 nc))) (range 1 nr) in
        free (Ok (mkMsp (N.to_nat nr) (N.to_nat nc) ((x0 :: row0) :: rows) a2r r2a)).
End Programs.

Section Keys.
Context {B : BilinearMap}.
Variable F : byte_forms B.
Variable P : platform.
(** the memory of a prepared point, with what it points to (G2Prepared in the instance) *)
Variable g1_mem : N.

(** GpswMasterPrivateKey, scheme.rs:113-119 *)
Definition priv_read (bytes : list byte) : metered (master_private_key B) :=
  let$ t := vec_read P (scalar_codec F) bytes in
  let$ r := free (slice_fromN bytes (vec_len (scalar_codec F) t)) in
  let$ y := free (dec (scalar_codec F) r) in
  free (Ok (mkPriv t y)).
(** GpswMasterPublicKey, scheme.rs:138-144 *)
Definition pub_read (bytes : list byte) : metered (master_public_key B) :=
  let$ t := vec_read P (g2_codec F) bytes in
  let$ r := free (slice_fromN bytes (vec_len (g2_codec F) t)) in
  let$ y := free (dec (gt_codec F) r) in
  free (Ok (mkPub t y)).
(** GpswMasterPublicDelegationKey, scheme.rs:160-165 *)
Definition del_read (bytes : list byte) : metered (delegation_key B) :=
  let$ t := vec_read P (g3_codec F) bytes in free (Ok (mkDel t)).
(** GpswDecryptionKey, scheme.rs:184-194; the last vector is that of line 191 *)
Definition user_read (bytes : list byte) : metered (decryption_key B) :=
  match bytes with
  | [] => free (Err EmptyPrivateKey)
  | _ =>
      let$ d := vec_read P (g3_codec F) bytes in
      let$ r := free (slice_fromN bytes (vec_len (g3_codec F) d)) in
      let$ m := msp_read P (scalar_codec F) r in
      let$ _ := charge (N.of_nat (length d) * g1_mem) in
      free (Ok (mkDec d (map (g3_to_g1 B) d) m))
  end.
(** GpswCipherText, scheme.rs:215-227 *)
Definition ct_read (bytes : list byte) : metered (ciphertext B) :=
  let$ g := vec_read P u32_codec bytes in
  let gl := vec_len u32_codec g in
  let$ r := free (slice_fromN bytes gl) in
  let$ ei := vec_read P (g2_codec F) r in
  let$ r2 := free (slice_fromN bytes (gl + vec_len (g2_codec F) ei)) in
  let$ ep := free (dec (gt_codec F) r2) in
  free (Ok (mkCt g ep ei)).
End Keys.

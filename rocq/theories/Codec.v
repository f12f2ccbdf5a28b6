(** Encodings of integers, vectors and span programs:
    /repo/src/core/gpsw/mod.rs:8-109 and /repo/src/core/msp.rs:26-107.
    Model only, no proofs. *)
From Coq Require Import String NArith ZArith Bool Strings.Byte List.
From Verif Require Import Prelude Field Msp.
Import ListNotations.
Local Open Scope N_scope.

(** bytes.len() *)
Definition blen (b : list byte) : N := N.of_nat (length b).

(** &l[i..] with a usize index *)
Definition slice_fromN {A} (l : list A) (i : N) : outcome (list A) :=
  if i <=? N.of_nat (length l) then Ok (skipn (N.to_nat i) l) else Panic SliceOutOfRange.

Definition byte_of (n : N) : byte :=
  match Byte.of_N (n mod 256) with Some b => b | None => x00 end.

(** u32::to_be_bytes *)
Definition be32 (n : N) : list byte :=
  [byte_of (n / 16777216); byte_of (n / 65536); byte_of (n / 256); byte_of n].

(** u32::from_be_bytes *)
Definition from_be (b : list byte) : N := fold_left (fun acc x => acc * 256 + Byte.to_N x) b 0.

Definition u32_modulus : N := 4294967296.
Definition u32_MAX : N := 4294967295.

(** u32::try_from(usize) followed by to_be_bytes *)
Definition u32_bytes (n : N) : outcome (list byte) :=
  if n <? u32_modulus then Ok (be32 n) else Err TryFromIntError.

(** Vec::with_capacity for a total size in bytes: panics above isize::MAX.
    Exhaustion of memory below that limit is not modelled. *)
Definition reserve (P : platform) (bytes : N) : outcome unit :=
  if bytes <? usize_modulus P / 2 then Ok tt else Panic CapacityOverflow.

(** trait AsBytes, mod.rs:8-12, with the size in memory of a value, which only
    matters for the capacity of vectors. *)
Record codec (A : Type) := mkCodec {
  enc : A -> outcome (list byte);
  dec : list byte -> outcome A;
  clen : A -> N;
  msize : N
}.
Arguments enc {A}.
Arguments dec {A}.
Arguments clen {A}.
Arguments msize {A}.
Arguments mkCodec {A}.

(** impl AsBytes for u32, mod.rs:14-32 *)
Definition u32_codec : codec N := mkCodec
  (fun n => Ok (be32 n))
  (fun b => if blen b <? 4
            then Err (Deserialization "cannot deserialize u32 element since input bytes size is less than 4 bytes")
            else Ok (from_be (firstn 4 b)))
  (fun _ => 4) 4.

(** two's complement *)
Definition i32_to_u32 (z : Z) : N := Z.to_N (z mod 4294967296)%Z.
Definition u32_to_i32 (n : N) : Z :=
  if n <? 2147483648 then Z.of_N n else (Z.of_N n - 4294967296)%Z.

(** impl AsBytes for i32, mod.rs:34-46: the slice [bytes[0..4]] is not checked. *)
Definition i32_codec : codec Z := mkCodec
  (fun z => Ok (be32 (i32_to_u32 z)))
  (fun b => let* s := slice b 0 4 in Ok (u32_to_i32 (from_be s)))
  (fun _ => 4) 4.

(** i in start..stop *)
Definition range (start stop : N) : list N :=
  map N.of_nat (seq (N.to_nat start) (N.to_nat stop - N.to_nat start)).

Section Vectors.
Variable P : platform.
Context {A : Type}.
Variable c : codec A.

(** Vec<T>::try_into_bytes, mod.rs:49-61 *)
Definition vec_enc (l : list A) : outcome (list byte) :=
  match l with
  | [] => Ok []
  | _ =>
      let* n := u32_bytes (N.of_nat (length l)) in
      let* bs := mapM (enc c) l in
      Ok (n ++ concat bs)
  end.

(** Vec<T>::try_from_bytes, mod.rs:63-100. [u32 as usize] is the identity:
    usize has at least 32 bits. *)
Definition vec_dec (bytes : list byte) : outcome (list A) :=
  match bytes with
  | [] => Ok []
  | _ =>
      if blen bytes <=? 4 then Err (Deserialization "deserializing element failed. Data are too small. Data altered?")
      else
        let len := from_be (firstn 4 bytes) in
        if u32_MAX <=? len then Err (Deserialization "deserializing element failed. Data altered?")
        else
          let* t0 := slice_fromN bytes 4 in
          let* res0 := dec c t0 in
          let k := clen c res0 in
          let* len1 := usize_sub P len 1 in
          let* m := usize_mul P len1 k in
          let* limit := usize_add P 4 m in
          if blen bytes <=? limit then Err (Deserialization "deserializing element failed. Data altered?")
          else
            let* _ := reserve P (len * msize c) in
            let* rest := mapM (fun i =>
                let* beg := usize_mul P i k in
                let* from := usize_add P 4 beg in
                let* t := slice_fromN bytes from in
                dec c t) (range 1 len) in
            Ok (res0 :: rest)
  end.

(** Vec<T>::len_bytes, mod.rs:102-108. Exact arithmetic: the value is at most the
    length of the encoding, which is held in memory. *)
Definition vec_len (l : list A) : N :=
  match l with
  | [] => 0
  | x :: _ => 4 + N.of_nat (length l) * clen c x
  end.
End Vectors.

Section Programs.
Variable P : platform.
Context {I : Type}.
Variable c : codec I.

(** self.matrix[0][0] *)
Definition first_entry (m : msp I) : outcome I :=
  let* r := index (matrix m) 0 in index r 0.

(** MonotoneSpanProgram::try_into_bytes, msp.rs:27-43 *)
Definition msp_enc (m : msp I) : outcome (list byte) :=
  let* x := first_entry m in
  let* a1 := usize_mul P (N.of_nat (nb_row m)) (N.of_nat (nb_col m)) in
  let* a2 := usize_mul P a1 (clen c x) in
  let* a3 := usize_add P 8 a2 in
  let* a4 := usize_mul P (N.of_nat (nb_row m)) 4 in
  let* a5 := usize_add P a3 a4 in
  let* _ := reserve P a5 in
  let* nr := u32_bytes (N.of_nat (nb_row m)) in
  let* nc := u32_bytes (N.of_nat (nb_col m)) in
  let* es := mapM (enc c) (concat (matrix m)) in
  Ok (nr ++ nc ++ concat (map be32 (row_to_attr m)) ++ concat es).

(** the loop on the attributes, msp.rs:66-76; [l] lists the remaining row numbers *)
Fixpoint read_attrs (bytes : list byte) (l : list N) (a2r : list (N * nat)) (r2a : list N)
    : outcome (list (N * nat) * list N) :=
  match l with
  | [] => Ok (a2r, r2a)
  | i :: l' =>
      let* i4 := usize_mul P i 4 in
      let* lo := usize_add P 8 i4 in
      let* hi := usize_add P 12 i4 in
      let* s := slice_fromN bytes lo in
      let* s := slice s 0 (N.to_nat (hi - lo)) in
      let u := from_be s in
      match assoc_get a2r u with
      | Some _ => Err (Deserialization "error deserializing MSP, leaf already inserted")
      | None => read_attrs bytes l' (a2r ++ [(u, N.to_nat i)]) (r2a ++ [u])
      end
  end.

(** one entry of the matrix: I::try_from_bytes(&bytes[8 + 4 * nb_row + pos * len ..]) *)
Definition read_entry (bytes : list byte) (base pos len : N) : outcome I :=
  let* o := usize_mul P pos len in
  let* index := usize_add P base o in
  let* t := slice_fromN bytes index in
  dec c t.

(** size_of::<usize>() *)
Definition word : N := usize_bits P / 8.
(** the memory of a HashMap<u32, usize> with room for [n] elements: the standard
    library takes 8/7 buckets per element rounded up to a power of two, with an
    entry of two words and a control byte each, and a last group of control bytes *)
Definition table_bytes (n : N) : N := 2 ^ N.log2_up (n * 8 / 7) * (2 * word + 1) + 16.

(** MonotoneSpanProgram::try_from_bytes, msp.rs:45-102. The reservations are those
    of lines 61, 62, 74 and 75; the ones of line 88 are as large as the last of
    these. The ones for the rows come after a check of [nb_row], the one for
    [nb_col] entries before any check of [nb_col]. *)
Definition msp_dec (bytes : list byte) : outcome (msp I) :=
  if blen bytes <? 8 then Err (InvalidSize "minimum len of 8 bytes is required for MSP")
  else
    let nr := from_be (firstn 4 bytes) in
    let nc := from_be (firstn 4 (skipn 4 bytes)) in
    let* a := usize_mul P 4 nr in
    let* base := usize_add P 8 a in
    if blen bytes <? base then Err (InvalidSize "invalid MSP size read from bytes")
    else
      let* _ := reserve P (nr * 4) in
      let* _ := reserve P (table_bytes nr) in
      let* (a2r, r2a) := read_attrs bytes (range 0 nr) [] [] in
      let* _ := reserve P (nr * (3 * word)) in
      let* _ := reserve P (nc * msize c) in
      let* t := slice_fromN bytes base in
      let* x0 := dec c t in
      let k := clen c x0 in
      let* n1 := usize_mul P nr nc in
      let* n2 := usize_mul P n1 k in
      let* limit := usize_add P base n2 in
      if blen bytes <? limit then Err (InvalidSize "invalid matrix size read from bytes")
      else
        let* row0 := mapM (fun col => read_entry bytes base col k) (range 1 nc) in
        let* rows := mapM (fun r => mapM (fun col =>
            let* p := usize_mul P r nc in
            let* p := usize_add P p col in
            read_entry bytes base p k) (range 0 nc)) (range 1 nr) in
        Ok (mkMsp (N.to_nat nr) (N.to_nat nc) ((x0 :: row0) :: rows) a2r r2a).

(** MonotoneSpanProgram::len_bytes, msp.rs:104-106 (exact arithmetic, as for vectors) *)
Definition msp_len (m : msp I) : outcome N :=
  let* x := first_entry m in
  Ok (8 + (N.of_nat (nb_row m) * N.of_nat (nb_col m) * clen c x) + (N.of_nat (nb_row m) * 4)).
End Programs.

(** What a caller of the C interface may rely on. *)
From Coq Require Import NArith ZArith Bool Strings.Byte List.
From Verif Require Import Prelude Ffi.
Import ListNotations.

(** The contract of an output argument: the length pointer is not null, and if the
    buffer is not null then the announced length is a non-negative C int and the
    buffer has at least that many bytes. *)
Definition good_out (o : out_arg) : Prop :=
  exists len, o_len o = Some len /\
    (0 <= len < 2147483648)%Z /\
    (forall mem, o_mem o = Some mem -> (len <= Z.of_nat (length mem))%Z).

(** The call changed at most the announced part of the buffer, and the length it
    reports, if the call succeeded, is at most the announced one. *)
Definition within (ok : bool) (o o' : out_arg) : Prop :=
  match o_mem o, o_mem o', o_len o, o_len o' with
  | Some mem, Some mem', Some len, Some len' =>
      length mem' = length mem /\
      (forall i, (len <= Z.of_nat i)%Z -> nth_error mem' i = nth_error mem i) /\
      (ok = true -> (0 <= len' <= len)%Z)
  | None, None, Some len, Some len' => len' = len
  | _, _, _, _ => False
  end.

(** A call with good output arguments never corrupts memory. *)
Definition memory_safe {A} (n : nat) (f : ffi A) : Prop :=
  forall outs, length outs = n -> Forall good_out outs ->
  match f outs with
  | Go _ outs' => Forall2 (within true) outs outs'
  | Bail _ outs' => Forall2 (within false) outs outs'
  | Crash _ => True
  | Undefined => False
  end.

(** [o'] is [o] after [data] has been delivered: the buffer starts with [data], the
    rest is as before, and the length is the number of bytes of [data]. *)
Definition delivered (data : list byte) (o o' : out_arg) : Prop :=
  exists mem, o_mem o = Some mem /\
    o_mem o' = Some (data ++ skipn (length data) mem) /\ (length data <= length mem)%nat /\
    o_len o' = Some (Z.of_nat (length data)).

(** [o'] is [o] with only the length changed *)
Definition asks_for (size : N) (o o' : out_arg) : Prop :=
  o_mem o' = o_mem o /\ o_len o' = Some (Z.of_N size).

(** what the caller reads after a call: the reported number of bytes of the buffer *)
Definition read_out (o : out_arg) : list byte :=
  match o_mem o, o_len o with
  | Some mem, Some len => firstn (Z.to_nat len) mem
  | _, _ => []
  end.

(** a buffer that the caller offers: [len] bytes are announced and present *)
Definition offers (o : out_arg) (len : Z) : Prop := good_out o /\ o_mem o <> None /\ o_len o = Some len.

(** an output that is only filled if the caller offers a non-empty buffer *)
Definition delivered_if_expected (data : option (list byte)) (o o' : out_arg) : Prop :=
  (o_mem o = None \/ o_len o = Some 0%Z -> o' = o) /\
  (o_mem o <> None -> o_len o <> Some 0%Z ->
     match data with
     | Some d => delivered d o o'
     | None => o_mem o' = o_mem o /\ o_len o' = Some 0%Z
     end).
Definition room_if_expected (data : option (list byte)) (o : out_arg) : Prop :=
  match data with
  | Some d => o_mem o = None \/ o_len o = Some 0%Z \/
              exists len, o_len o = Some len /\ (Z.of_nat (length d) <= len)%Z
  | None => True
  end.

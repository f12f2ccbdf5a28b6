(** The errors of the C interface, per thread, /repo/src/interfaces/ffi/error.rs. *)
From Coq Require Import String NArith ZArith Bool Strings.Byte List.
From Verif Require Import Prelude Codec Ffi.
Import ListNotations.
Local Open Scope N_scope.

(** FfiError, error.rs:9-19. Texts are their UTF-8 bytes. *)
Inductive thread_error :=
| NullPointerErr (what : list byte)
| GenericErr (msg : list byte)
| DeserializeErr (msg : list byte).

Definition text (s : string) : list byte := list_byte_of_string s.

(** Display of FfiError, error.rs:11-18 *)
Definition display (e : thread_error) : list byte :=
  match e with
  | NullPointerErr s => text "Invalid NULL pointer passed for: " ++ s
  | GenericErr s => text "FFI error: " ++ s
  | DeserializeErr s => text "Deserialize error: " ++ s
  end.

(** str::from_utf8 of the standard library: the well-formed byte sequences of the
    Unicode standard, table 3-7 *)
Definition between (lo hi : N) (b : byte) : bool := (lo <=? Byte.to_N b) && (Byte.to_N b <=? hi).
Definition cont : byte -> bool := between 128 191.
Fixpoint utf8 (b : list byte) : bool :=
  match b with
  | [] => true
  | x :: t =>
      if between 0 127 x then utf8 t
      else match t with
      | y :: t2 =>
          if between 194 223 x then cont y && utf8 t2
          else match t2 with
          | z :: t3 =>
              if between 224 224 x then between 160 191 y && cont z && utf8 t3
              else if between 225 236 x || between 238 239 x then cont y && cont z && utf8 t3
              else if between 237 237 x then between 128 159 y && cont z && utf8 t3
              else match t3 with
              | w :: t4 =>
                  if between 240 240 x then between 144 191 y && cont z && cont w && utf8 t4
                  else if between 241 243 x then cont y && cont z && cont w && utf8 t4
                  else if between 244 244 x then between 128 143 y && cont z && cont w && utf8 t4
                  else false
              | [] => false
              end
          | [] => false
          end
      | [] => false
      end
  end.

(** CStr::from_ptr: the bytes before the first NUL; [None] when there is none in the
    memory of the caller (the behaviour is undefined) *)
Fixpoint c_str (mem : list byte) : option (list byte) :=
  match mem with
  | [] => None
  | x :: t => if Byte.eqb x x00 then Some [] else option_map (cons x) (c_str t)
  end.

(** set_error, error.rs:143-158: the returned code and the error set *)
Definition set_error (ptr : option (list byte)) : option (Z * thread_error) :=
  match ptr with
  | None => Some (1%Z, NullPointerErr (text "error message"))
  | Some mem =>
      match c_str mem with
      | None => None
      | Some m => if utf8 m then Some (0%Z, GenericErr m)
                  else Some (1%Z, GenericErr (text "sse_client_update: invalid error message"))
      end
  end.

Section Threads.
(** the text of the NulError of the standard library for a message *)
Variable nul_text : list byte -> list byte.

(** what get_last_error sets in turn when the message has a NUL, error.rs:184-187 *)
Definition nul_error (msg : list byte) : thread_error :=
  GenericErr (text "failed to convert error to CString" ++ text ": " ++ nul_text msg).

(** LAST_ERROR, error.rs:126-129: one per thread *)
Definition errors := nat -> option thread_error.
Definition with_error (s : errors) (t : nat) (e : option thread_error) : errors :=
  fun u => if Nat.eqb u t then e else s u.

(** get_last_error of a thread, error.rs:164-207: null pointers first, then [Ffi.get_last_error] *)
Definition read_error (ptr : option (list byte)) (len : option Z) (e : option thread_error)
    : option (Z * option (list byte) * option Z * option thread_error) :=
  match ptr, len with
  | Some mem, Some n =>
      match get_last_error (fun m => m) mem n (option_map display e) with
      | None => None
      | Some (code, mem', n', kept) =>
          Some (code, Some mem', Some n',
            match kept with
            | None => None
            | Some m => if (n <? 1)%Z then e else Some (nul_error m)
            end)
      end
  | _, _ => Some (1%Z, ptr, len, e)
  end.

(** The calls of a program: [Other] stands for any other function of the interface, which
    leaves the error as it is or sets one. *)
Inductive call :=
| SetError (ptr : option (list byte))
| GetError (ptr : option (list byte)) (len : option Z)
| Other (sets : option thread_error).

Definition step (s : errors) (t : nat) (c : call) : option errors :=
  match c with
  | SetError ptr => option_map (fun r => with_error s t (Some (snd r))) (set_error ptr)
  | GetError ptr len => option_map (fun r => with_error s t (snd r)) (read_error ptr len (s t))
  | Other None => Some s
  | Other (Some e) => Some (with_error s t (Some e))
  end.

Fixpoint steps (s : errors) (l : list (nat * call)) : option errors :=
  match l with
  | [] => Some s
  | (t, c) :: l => match step s t c with Some s => steps s l | None => None end
  end.
End Threads.

(** Model of the key caches of the C interface:
    /repo/src/interfaces/ffi/hybrid_gpsw_aes.rs:43-123 (encryption) and 372-443
    (decryption), with any number of threads. The two caches have separate counters,
    maps and locks and the same code, so one of them is modelled, for any type of
    cached value.

    A call is cut into the atomic steps that touch shared state: the fetch_add on the
    counter, taking the lock, the operation on the map, dropping the lock when the
    function returns. What a call does before its first such step (checking pointers,
    parsing the keys) touches nothing shared, and a call that fails there is not
    modelled: it leaves the cache alone. The HashMap is a function from handles, the
    RwLock is a writer and a list of readers. Which waiting thread gets the lock is
    left open. A lock is poisoned only by a panic of a writer; insert and remove do not
    panic (running out of memory aborts). *)
From Coq Require Import NArith ZArith Bool Arith List.
From Verif Require Import Prelude Codec.
Import ListNotations.

Section Cache.
Context {V : Type}.

(** Where a thread is in its call *)
Inductive call :=
| Idle
| WantInsert (h : Z) (v : V)  (** create: after fetch_add, line 104 *)
| Inserting (h : Z) (v : V)   (** has the write lock, lines 105-107 *)
| InsertDone (h : Z) (v : V)  (** map.insert done, line 108; *cache_handle = id, line 109 *)
| WantRemove (h : Z)          (** destroy, line 117 *)
| Removing (h : Z)
| RemoveDone (h : Z)          (** map.remove done, line 121 *)
| WantLookup (h : Z)          (** a header function, line 157 *)
| Looking (h : Z)             (** has the read lock, lines 157-159 *)
| Using (h : Z) (r : option V). (** map.get done, line 160; the lock is kept to the end of the function *)

(** What the callers see. *)
Inductive event :=
| CallCreate (t : nat) (v : V)
| RetCreate (t : nat) (v : V) (h : Z)
| CallDestroy (t : nat) (h : Z)
| RetDestroy (t : nat) (h : Z)
| CallUse (t : nat) (h : Z)
| RetUse (t : nat) (h : Z) (r : option V).

Record state := mkState {
  next : Z;              (** NEXT_ENCRYPTION_CACHE_ID, line 47 *)
  cached : Z -> option V;(** ENCRYPTION_CACHE_MAP, line 45 *)
  writer : option nat;
  readers : list nat;
  pc : nat -> call
}.

(** the statics at start, lines 45-47 *)
Definition start : state := mkState 0 (fun _ => None) None [] (fun _ => Idle).

(** AtomicI32::fetch_add(1): wraps *)
Definition add_i32 (z : Z) : Z := u32_to_i32 (i32_to_u32 (z + 1)).

Definition upd {A} (f : nat -> A) (t : nat) (x : A) : nat -> A := fun t' => if Nat.eqb t' t then x else f t'.
Definition at_pc (s : state) (t : nat) (c : call) : state := mkState (next s) (cached s) (writer s) (readers s) (upd (pc s) t c).
(** HashMap::insert and HashMap::remove *)
Definition set_map (m : Z -> option V) (h : Z) (x : option V) : Z -> option V := fun h' => if Z.eqb h' h then x else m h'.

(** One step of one thread *)
Inductive step (s : state) (t : nat) : list event -> state -> Prop :=
(** create, lines 68-111 and 396-431 *)
| s_fetch v : pc s t = Idle ->
    step s t [CallCreate t v] (mkState (add_i32 (next s)) (cached s) (writer s) (readers s) (upd (pc s) t (WantInsert (next s) v)))
| s_lock_insert h v : pc s t = WantInsert h v -> writer s = None -> readers s = [] ->
    step s t [] (mkState (next s) (cached s) (Some t) [] (upd (pc s) t (Inserting h v)))
| s_insert h v : pc s t = Inserting h v ->
    step s t [] (mkState (next s) (set_map (cached s) h (Some v)) (writer s) (readers s) (upd (pc s) t (InsertDone h v)))
| s_created h v : pc s t = InsertDone h v ->
    step s t [RetCreate t v h] (mkState (next s) (cached s) None (readers s) (upd (pc s) t Idle))
(** destroy, lines 117-123 and 437-443 *)
| s_destroy h : pc s t = Idle -> step s t [CallDestroy t h] (at_pc s t (WantRemove h))
| s_lock_remove h : pc s t = WantRemove h -> writer s = None -> readers s = [] ->
    step s t [] (mkState (next s) (cached s) (Some t) [] (upd (pc s) t (Removing h)))
| s_remove h : pc s t = Removing h ->
    step s t [] (mkState (next s) (set_map (cached s) h None) (writer s) (readers s) (upd (pc s) t (RemoveDone h)))
| s_destroyed h : pc s t = RemoveDone h ->
    step s t [RetDestroy t h] (mkState (next s) (cached s) None (readers s) (upd (pc s) t Idle))
(** h_aes_encrypt_header_using_cache, lines 157-167, and
    h_aes_decrypt_header_using_cache, lines 484-494 *)
| s_use h : pc s t = Idle -> step s t [CallUse t h] (at_pc s t (WantLookup h))
| s_lock_read h : pc s t = WantLookup h -> writer s = None ->
    step s t [] (mkState (next s) (cached s) None (t :: readers s) (upd (pc s) t (Looking h)))
| s_get h : pc s t = Looking h -> step s t [] (at_pc s t (Using h (cached s h)))
| s_used h r : pc s t = Using h r ->
    step s t [RetUse t h r] (mkState (next s) (cached s) (writer s) (remove Nat.eq_dec t (readers s)) (upd (pc s) t Idle)).

(** The executions: the events so far, in order, and the state reached *)
Inductive run : list event -> state -> Prop :=
| run_start : run [] start
| run_step tr s t ev s' : run tr s -> step s t ev s' -> run (tr ++ ev) s'.
End Cache.
Arguments call : clear implicits.
Arguments event : clear implicits.
Arguments state : clear implicits.

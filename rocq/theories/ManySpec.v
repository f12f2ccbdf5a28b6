(** The experiment of [GameSpec] with any number of encryptions. At each of them the attacker chooses two
    messages and a list of attributes, and always the first, or always the second message is encrypted. *)
From Coq Require Import Bool NArith ZArith List.
From Verif Require Import Prelude Field Msp Spec Bilinear Scheme CollusionSpec LuckSpec GameSpec.
Import ListNotations.

(** A product of elements: one strategy for the elements that belong to no ciphertext, then one for each
    ciphertext and the other elements, the oldest ciphertext first. *)
Definition combination (B : BilinearMap) := list (strategy B).

(** What the attacker does. *)
Inductive plans (B : BilinearMap) :=
| Done (guess : bool)
| Equal (a b : combination B) (same different : plans B)        (* are these two products equal? *)
| Issue (e : event) (shown : bool) (next : plans B)             (* a key is issued, and shown to the attacker or not *)
| Either (gam : list N) (m0 m1 : combination B) (next : plans B).   (* one of the messages is encrypted *)
Arguments Done {B}.
Arguments Equal {B}.
Arguments Issue {B}.
Arguments Either {B}.

(** All values that are drawn: as in [drawn], with one scalar for each ciphertext. *)
Record throws (B : BilinearMap) := mkThrows {
  th_t : list (bm_K B);
  th_y : bm_K B;
  th_u : list (bm_K B);
  th_s : list (bm_K B)
}.
Arguments mkThrows {B}.
Arguments th_t {B}.
Arguments th_y {B}.
Arguments th_u {B}.
Arguments th_s {B}.

(** The greatest number of comparisons on a path of the plan. *)
Fixpoint equations {B} (p : plans B) : nat :=
  match p with
  | Done _ => 0
  | Equal _ _ p q => S (Nat.max (equations p) (equations q))
  | Issue _ _ p => equations p
  | Either _ _ _ p => equations p
  end.

(** The plan asks for [m] encryptions at most, no key shown to the attacker is satisfied by the
    attributes of any ciphertext, and no more than [n] values are drawn for the keys. *)
Fixpoint fairly {B} (n m : nat) (fs : list node) (held : list bool) (targets : list (list N)) (p : plans B) : Prop :=
  match p with
  | Done _ => True
  | Equal _ _ p q => fairly n m fs held targets p /\ fairly n m fs held targets q
  | Issue e shown p => forall f, formula_of fs e = Some f ->
      used (f :: fs) <= n /\ (shown = true -> forall gam, In gam targets -> ~ holds (fun a => In a gam) f) /\
      fairly n m (f :: fs) (shown :: held) targets p
  | Either gam _ _ p => length targets < m /\ (forall f, In f (kept held fs) -> ~ holds (fun a => In a gam) f) /\
      fairly n m fs held (targets ++ [gam]) p
  end.

Section Games.
Context {B : BilinearMap}.
Local Notation K := (bm_K B).
Variable P : platform.
Variable mk : master_key B.
Variable u : list K.      (* the values drawn for the keys *)
Variable s : list K.      (* the scalars of the ciphertexts *)

(** The element computed by a combination. *)
Definition result_of (uks : list (decryption_key B)) (cts : list (ciphertext B)) (a : combination B) : Gt B :=
  fold_right (fun z acc => gt_mul B (attack mk uks (fst z) (snd z)) acc) (gt_gen_exp B f0) (combine (no_ciphertext :: cts) a).

(** A run of the plan ends with an answer. If [w] is true the second messages are encrypted, otherwise
    the first. *)
Inductive ends (w : bool) : list node -> list bool -> list (decryption_key B) -> list (ciphertext B) -> plans B -> bool -> Prop :=
| en_done fs held uks cts b : ends w fs held uks cts (Done b) b
| en_same fs held uks cts a b p q r : result_of (kept held uks) cts a = result_of (kept held uks) cts b ->
    ends w fs held uks cts p r -> ends w fs held uks cts (Equal a b p q) r
| en_different fs held uks cts a b p q r : result_of (kept held uks) cts a <> result_of (kept held uks) cts b ->
    ends w fs held uks cts q r -> ends w fs held uks cts (Equal a b p q) r
| en_issue fs held uks cts e shown p f uk r : makes P mk fs uks (values (skipn (used fs) u)) e f uk ->
    ends w (f :: fs) (shown :: held) (uk :: uks) cts p r -> ends w fs held uks cts (Issue e shown p) r
| en_either fs held uks cts gam m0 m1 p ct r :
    encrypt P (result_of (kept held uks) cts (if w then m1 else m0)) gam (pub_key mk) (values s (length cts)) = Ok ct ->
    ends w fs held uks (cts ++ [ct]) p r -> ends w fs held uks cts (Either gam m0 m1 p) r.
End Games.

(** The answer of the plan tells which messages were encrypted: with these draws some answer is given
    in one case and not in the other. *)
Definition tells {B : BilinearMap} (P : platform) (size : nat) (p : plans B) (x : throws B) : Prop :=
  exists mk w r, generate_master_key size (values (th_t x ++ [th_y x])) = Ok mk /\
    ends P mk (th_u x) (th_s x) w [] [] [] [] p r /\ ~ ends P mk (th_u x) (th_s x) (negb w) [] [] [] [] p r.

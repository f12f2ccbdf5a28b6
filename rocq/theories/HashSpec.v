(** The experiment of telling the symmetric keys of headers from random bytes. As in [ManySpec] the attacker
    chooses every step after seeing the results of the earlier ones, and the elements of the groups are
    only multiplied, raised to powers, paired and compared. The hash function that makes a symmetric key from an
    element of the target group (SHAKE, engine.rs:116-134) is idealised: the answers for different
    elements are unrelated values, and the attacker can have the hash of every element computed. *)
From Coq Require Import Bool NArith ZArith List Strings.Byte.
From Verif Require Import Prelude Field Msp Spec Bilinear Scheme CollusionSpec LuckSpec GameSpec ManySpec.
Import ListNotations.

(** What the attacker does. *)
Inductive quest (B : BilinearMap) :=
| Says (guess : bool)
| Same (a b : combination B) (same different : quest B)         (* are these two products equal? *)
| Asks (e : event) (shown : bool) (next : quest B)              (* a key is issued, and shown to the attacker or not *)
| Hashes (a : combination B) (next : list byte -> quest B)      (* what is the hash of this product? *)
| Wraps (gam : list N) (next : list byte -> quest B).           (* a header is made; what is its symmetric key? *)
Arguments Says {B}.
Arguments Same {B}.
Arguments Asks {B}.
Arguments Hashes {B}.
Arguments Wraps {B}.

(** The attacker compares at most [c] times, asks for at most [h] hashes and [m] headers, no key
    shown is satisfied by the attributes of any header, and no more than [n] values are drawn for the keys. *)
Fixpoint decent {B} (n m c h : nat) (fs : list node) (held : list bool) (targets : list (list N)) (p : quest B) : Prop :=
  match p with
  | Says _ => True
  | Same _ _ p q => match c with O => False | S c => decent n m c h fs held targets p /\ decent n m c h fs held targets q end
  | Asks e shown p => forall f, formula_of fs e = Some f ->
      used (f :: fs) <= n /\ (shown = true -> forall gam, In gam targets -> ~ holds (fun a => In a gam) f) /\
      decent n m c h (f :: fs) (shown :: held) targets p
  | Hashes _ next => match h with O => False | S h => forall v, decent n m c h fs held targets (next v) end
  | Wraps gam next => length targets < m /\ (forall f, In f (kept held fs) -> ~ holds (fun a => In a gam) f) /\
      forall v, decent n m c h fs held (targets ++ [gam]) (next v)
  end.

Section Experiment.
Context {B : BilinearMap}.
Local Notation K := (bm_K B).
Variable P : platform.
Variable mk : master_key B.
Variable u : list K.                  (* the values drawn for the keys *)
Variable s : list K.                  (* the scalars of the ciphertexts *)
Variable r : list K.                  (* the exponents of the elements encrypted in the headers *)
Variable o : nat -> list byte.        (* the values that become hashes, in the order in which they are needed *)

(** The hash of an element: the one given before, or the next value. *)
Inductive hash (tab : list (Gt B * list byte)) (k : nat) (g : Gt B) : list byte -> list (Gt B * list byte) -> nat -> Prop :=
| ha_known v : In (g, v) tab -> hash tab k g v tab k
| ha_new : (forall v, ~ In (g, v) tab) -> hash tab k g (o k) ((g, o k) :: tab) (S k).

(** A run ends with an answer. If [real] is true the symmetric key of a header is the hash of
    the encrypted element, otherwise it is a value used for nothing else. *)
Inductive concludes (real : bool) : list node -> list bool -> list (decryption_key B) -> list (ciphertext B) ->
    list (Gt B * list byte) -> nat -> quest B -> bool -> Prop :=
| se_says fs held uks cts tab k b : concludes real fs held uks cts tab k (Says b) b
| se_same fs held uks cts tab k a b p q ans : result_of mk (kept held uks) cts a = result_of mk (kept held uks) cts b ->
    concludes real fs held uks cts tab k p ans -> concludes real fs held uks cts tab k (Same a b p q) ans
| se_different fs held uks cts tab k a b p q ans : result_of mk (kept held uks) cts a <> result_of mk (kept held uks) cts b ->
    concludes real fs held uks cts tab k q ans -> concludes real fs held uks cts tab k (Same a b p q) ans
| se_asks fs held uks cts tab k e shown p f uk ans : makes P mk fs uks (values (skipn (used fs) u)) e f uk ->
    concludes real (f :: fs) (shown :: held) (uk :: uks) cts tab k p ans -> concludes real fs held uks cts tab k (Asks e shown p) ans
| se_hashes fs held uks cts tab k a next v tab' k' ans : hash tab k (result_of mk (kept held uks) cts a) v tab' k' ->
    concludes real fs held uks cts tab' k' (next v) ans -> concludes real fs held uks cts tab k (Hashes a next) ans
| se_real fs held uks cts tab k gam next ct v tab' k' ans : real = true ->
    encrypt P (gt_gen_exp B (values r (length cts))) gam (pub_key mk) (values s (length cts)) = Ok ct ->
    hash tab k (gt_gen_exp B (values r (length cts))) v tab' k' ->
    concludes real fs held uks (cts ++ [ct]) tab' k' (next v) ans -> concludes real fs held uks cts tab k (Wraps gam next) ans
| se_random fs held uks cts tab k gam next ct ans : real = false ->
    encrypt P (gt_gen_exp B (values r (length cts))) gam (pub_key mk) (values s (length cts)) = Ok ct ->
    concludes real fs held uks (cts ++ [ct]) tab (S k) (next (o k)) ans -> concludes real fs held uks cts tab k (Wraps gam next) ans.
End Experiment.

(** The answer tells whether the symmetric keys are the real ones: with these draws and these exponents some
    answer is given in one case and not in the other. *)
Definition notices {B : BilinearMap} (P : platform) (size : nat) (o : nat -> list byte) (p : quest B) (z : throws B * list (bm_K B)) : Prop :=
  exists mk real ans, generate_master_key size (values (th_t (fst z) ++ [th_y (fst z)])) = Ok mk /\
    concludes P mk (th_u (fst z)) (th_s (fst z)) (snd z) o real [] [] [] [] [] 0 p ans /\
    ~ concludes P mk (th_u (fst z)) (th_s (fst z)) (snd z) o (negb real) [] [] [] [] [] 0 p ans.

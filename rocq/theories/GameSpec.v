(** The experiment of telling apart the ciphertexts of two chosen messages. The attacker chooses every
    step after seeing the results of the earlier ones; the elements of the groups are only multiplied,
    raised to powers, paired and compared. *)
From Coq Require Import Bool NArith ZArith List.
From Verif Require Import Prelude Field Msp Spec Bilinear Scheme CollusionSpec LuckSpec.
Import ListNotations.

(** What the attacker does. *)
Inductive plan (B : BilinearMap) :=
| Answer (guess : bool)
| Compare (a b : strategy B) (same different : plan B)   (* are these two products equal? *)
| Ask (e : event) (shown : bool) (next : plan B)         (* a key is issued, and shown to the attacker or not *)
| Challenge (gam : list N) (m0 m1 : strategy B) (next : plan B).   (* one of the messages is encrypted *)
Arguments Answer {B}.
Arguments Compare {B}.
Arguments Ask {B}.
Arguments Challenge {B}.

(** All values that are drawn: the attribute secrets and [y] of the master key, the values for all
    keys one after the other, and the scalar of the ciphertext. *)
Record drawn (B : BilinearMap) := mkDrawn {
  dr_t : list (bm_K B);
  dr_y : bm_K B;
  dr_u : list (bm_K B);
  dr_s : bm_K B
}.
Arguments mkDrawn {B}.
Arguments dr_t {B}.
Arguments dr_y {B}.
Arguments dr_u {B}.
Arguments dr_s {B}.

(** How many values were drawn for keys with these formulas. *)
Definition used (fs : list node) : nat := list_sum (map count_and fs).

(** The greatest number of comparisons on a path of the plan. *)
Fixpoint comparisons {B} (p : plan B) : nat :=
  match p with
  | Answer _ => 0
  | Compare _ _ p q => S (Nat.max (comparisons p) (comparisons q))
  | Ask _ _ p => comparisons p
  | Challenge _ _ _ p => comparisons p
  end.

(** The formula of an issued key, if the keys before have the formulas [fs] (newest first). *)
Definition formula_of (fs : list node) (e : event) : option node :=
  match e with Generated f => Some f | Delegated _ f => Some f | Refreshed k => nth_error fs k end.

(** The plan asks for one encryption at most, no key shown to the attacker is satisfied by its
    attributes, and no more than [n] values are drawn for the keys. *)
Fixpoint fair {B} (n : nat) (fs : list node) (held : list bool) (target : option (list N)) (p : plan B) : Prop :=
  match p with
  | Answer _ => True
  | Compare _ _ p q => fair n fs held target p /\ fair n fs held target q
  | Ask e shown p => forall f, formula_of fs e = Some f ->
      used (f :: fs) <= n /\ (shown = true -> forall gam, target = Some gam -> ~ holds (fun a => In a gam) f) /\
      fair n (f :: fs) (shown :: held) target p
  | Challenge gam _ _ p => target = None /\ (forall f, In f (kept held fs) -> ~ holds (fun a => In a gam) f) /\
      fair n fs held (Some gam) p
  end.

Section Game.
Context {B : BilinearMap}.
Local Notation K := (bm_K B).
Variable P : platform.
Variable mk : master_key B.
Variable u : list K.      (* the values drawn for the keys *)
Variable s : K.           (* the scalar of the ciphertext *)

(** Issuing a key. *)
Inductive makes (fs : list node) (uks : list (decryption_key B)) (draw : nat -> K) : event -> node -> decryption_key B -> Prop :=
| mk_gen f m uk : to_msp P f = Ok m -> key_generation m (priv_key mk) draw = Ok uk -> makes fs uks draw (Generated f) f uk
| mk_del k f uk f' m' uk' : nth_error fs k = Some f -> nth_error uks k = Some uk ->
    narrows f' f \/ restricts f' f -> to_msp P f' = Ok m' -> abe_key_delegation (Some m') uk (del_key mk) draw = Ok uk' ->
    makes fs uks draw (Delegated k f') f' uk'
| mk_ref k f uk uk' : nth_error fs k = Some f -> nth_error uks k = Some uk ->
    abe_key_delegation None uk (del_key mk) draw = Ok uk' -> makes fs uks draw (Refreshed k) f uk'.

(** A run of the plan ends with an answer. If [w] is true the second message is encrypted, otherwise
    the first. *)
Inductive plays (w : bool) : list node -> list bool -> list (decryption_key B) -> ciphertext B -> plan B -> bool -> Prop :=
| pl_answer fs held uks ct b : plays w fs held uks ct (Answer b) b
| pl_same fs held uks ct a b p q r : attack mk (kept held uks) ct a = attack mk (kept held uks) ct b ->
    plays w fs held uks ct p r -> plays w fs held uks ct (Compare a b p q) r
| pl_different fs held uks ct a b p q r : attack mk (kept held uks) ct a <> attack mk (kept held uks) ct b ->
    plays w fs held uks ct q r -> plays w fs held uks ct (Compare a b p q) r
| pl_ask fs held uks ct e shown p f uk r : makes fs uks (values (skipn (used fs) u)) e f uk ->
    plays w (f :: fs) (shown :: held) (uk :: uks) ct p r -> plays w fs held uks ct (Ask e shown p) r
| pl_challenge fs held uks ct gam m0 m1 p ct' r :
    encrypt P (attack mk (kept held uks) ct (if w then m1 else m0)) gam (pub_key mk) s = Ok ct' ->
    plays w fs held uks ct' p r -> plays w fs held uks ct (Challenge gam m0 m1 p) r.
End Game.

(** Before there is a ciphertext its elements stand for the neutral element. *)
Definition no_ciphertext {B : BilinearMap} : ciphertext B := mkCt [] (gt_gen_exp B f0) [].

(** The answer of the plan tells which message was encrypted: with these draws some answer is given
    in one case and not in the other. *)
Definition tells_apart {B : BilinearMap} (P : platform) (size : nat) (p : plan B) (x : drawn B) : Prop :=
  exists mk w r, generate_master_key size (values (dr_t x ++ [dr_y x])) = Ok mk /\
    plays P mk (dr_u x) (dr_s x) w [] [] [] no_ciphertext p r /\
    ~ plays P mk (dr_u x) (dr_s x) (negb w) [] [] [] no_ciphertext p r.

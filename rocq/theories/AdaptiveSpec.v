(** The experiment of [ReductionSpec] for attackers that choose the attributes of a ciphertext when they ask
    for it, in view of the public key and of the user keys they hold. *)
From Coq Require Import String Bool NArith ZArith Strings.Byte List.
From Verif Require Import Prelude Field Msp Spec Bilinear Gauss Scheme Codec SchemeCodec Policy Engine Hybrid CollusionSpec LuckSpec GameSpec ReductionSpec SealSpec.
Import ListNotations.

(** ** The experiment *)
Inductive chooser (B : BilinearMap) :=
| Decide (b : bool)
| AskKey (e : event) (next : outcome (decryption_key B) -> chooser B)        (* the attacker gets the key *)
| AskOther (e : event) (next : chooser B)                                    (* somebody else gets it *)
| AskText (gam : list N) (m0 m1 : Gt B) (next : outcome (ciphertext B) -> chooser B).
Arguments Decide {B}.
Arguments AskKey {B}.
Arguments AskOther {B}.
Arguments AskText {B}.

(** [held] are the formulas of the keys of the attacker so far and [chosen] the lists of attributes of the
    ciphertexts so far: no key is satisfied by the attributes of a ciphertext, whichever comes first. The
    lists of attributes are taken from [cands], at most [m] ciphertexts are asked for, and [n] values are
    enough for all the keys. *)
Fixpoint lawful_choice {B} (P : platform) (size : nat) (cands : list (list N)) (n : nat) (fs held : list node) (chosen : list (list N)) (m : nat) (p : chooser B) : Prop :=
  match p with
  | Decide _ => True
  | AskKey e next => proper P size fs e /\ forall f, formula_of fs e = Some f ->
      (forall gam, In gam chosen -> ~ holds (fun a => In a gam) f) /\ count_and f <= n /\
      forall r, lawful_choice P size cands (n - count_and f) (f :: fs) (f :: held) chosen m (next r)
  | AskOther e next => proper P size fs e /\ forall f, formula_of fs e = Some f ->
      count_and f <= n /\ lawful_choice P size cands (n - count_and f) (f :: fs) held chosen m next
  | AskText gam _ _ next => In gam cands /\ (forall f, In f held -> ~ holds (fun a => In a gam) f) /\
      match m with O => False | S m => forall r, lawful_choice P size cands n fs held (gam :: chosen) m (next r) end
  end.

Section Choice.
Context {B : BilinearMap}.
Local Notation K := (bm_K B).
Variable P : platform.
Variable size : nat.

(** As [play_many], with the attributes that the attacker chooses. *)
Fixpoint play_choice (mk : master_key B) (ws : list bool) (ss : list K) (fs : list node)
    (uks : list (outcome (decryption_key B))) (u : list K) (p : chooser B) : bool :=
  match p with
  | Decide b => b
  | AskKey e next => let uk := issue P mk uks (values u) e in play_choice mk ws ss (formulas fs e) (uk :: uks) (skipn (needs fs e) u) (next uk)
  | AskOther e next => let uk := issue P mk uks (values u) e in play_choice mk ws ss (formulas fs e) (uk :: uks) (skipn (needs fs e) u) next
  | AskText gam m0 m1 next =>
      match ws, ss with
      | w :: ws, s :: ss => play_choice mk ws ss fs uks u (next (encrypt P (if w then m1 else m0) gam (pub_key mk) s))
      | _, _ => false
      end
  end.
Definition experiment_choice (start : master_public_key B -> delegation_key B -> chooser B) (ws : list bool)
    (t : list K) (y : K) (u ss : list K) : bool :=
  match generate_master_key size (values (t ++ [y])) with
  | Ok mk => play_choice mk ws ss [] [] u (start (pub_key mk) (del_key mk))
  | _ => false
  end.
Definition answers_true_choice {R} (start : R -> master_public_key B -> delegation_key B -> chooser B)
    (elems : list K) (coins : list R) (n m : nat) (w : bool) : nat :=
  total coins (fun c => total (tuples elems size) (fun t => total elems (fun y => total (tuples elems m) (fun ss =>
    total (tuples elems n) (fun u => bit (experiment_choice (start c) (repeat w m) t y u ss)))))).

(** ** The attacker that guesses *)
(** It guesses that one of the ciphertexts is for the attributes [g], asks for this one and makes all the others
    itself. The list has an entry for each ciphertext, [None] for the one it asks for. It gives up if the
    guess turns out wrong. *)
Fixpoint satisfied (g : list N) (f : node) : bool :=
  match f with Leaf a => existsb (N.eqb a) g | And x y => satisfied g x && satisfied g y | Or x y => satisfied g x || satisfied g y end.
Definition unused (l : list (option (bool * K))) : bool := existsb (fun e => match e with None => true | _ => false end) l.
Fixpoint guessing (pub : master_public_key B) (g : list N) (l : list (option (bool * K))) (fs : list node) (p : chooser B) : attacker B :=
  match p with
  | Decide b => Guess (if unused l then false else b)
  | AskKey e next =>
      if unused l && match formula_of fs e with Some f => satisfied g f | None => false end then Guess false
      else WantKey e (fun r => guessing pub g l (formulas fs e) (next r))
  | AskOther e next => OtherKey e (guessing pub g l (formulas fs e) next)
  | AskText gam m0 m1 next =>
      match l with
      | [] => Guess false
      | None :: l => if list_eq_dec N.eq_dec gam g then WantText m0 m1 (fun r => guessing pub g l fs (next r)) else Guess false
      | Some (w, s) :: l => guessing pub g l fs (next (encrypt P (if w then m1 else m0) gam pub s))
      end
  end.
(** Ciphertext number [i] is the one it asks for; the second messages are encrypted before it and the first ones after
    it. *)
Definition guesser {R} (i : nat) (g : list N) (start : R -> master_public_key B -> delegation_key B -> chooser B)
    (x : R * (list K * list K)) (pub : master_public_key B) (del : delegation_key B) : attacker B :=
  let '(c, (before, after)) := x in
  guessing pub g (map (fun s => Some (true, s)) before ++ None :: map (fun s => Some (false, s)) after) [] (start c pub del).
Definition guesser_coins {R} (m i : nat) (elems : list K) (coins : list R) : list (R * (list K * list K)) :=
  list_prod coins (list_prod (tuples elems i) (tuples elems (m - S i))).
End Choice.

(** ** Headers *)
(** The experiment with headers and symmetric keys, for attributes that the attacker chooses. *)
Inductive inquirer (B : BilinearMap) :=
| Conclude (b : bool)
| InquireKey (e : event) (next : outcome (decryption_key B) -> inquirer B)
| InquireOther (e : event) (next : inquirer B)
| InquireHeader (l : list attribute) (next : outcome (list byte * list byte) -> inquirer B).
Arguments Conclude {B}.
Arguments InquireKey {B}.
Arguments InquireOther {B}.
Arguments InquireHeader {B}.

Fixpoint lawful_inquiry {B} (P : platform) (size : nat) (pol : policy) (cands : list (list N)) (n : nat) (fs held : list node) (chosen : list (list N)) (m : nat) (p : inquirer B) : Prop :=
  match p with
  | Conclude _ => True
  | InquireKey e next => proper P size fs e /\ forall f, formula_of fs e = Some f ->
      (forall gam, In gam chosen -> ~ holds (fun a => In a gam) f) /\ count_and f <= n /\
      forall r, lawful_inquiry P size pol cands (n - count_and f) (f :: fs) (f :: held) chosen m (next r)
  | InquireOther e next => proper P size fs e /\ forall f, formula_of fs e = Some f ->
      count_and f <= n /\ lawful_inquiry P size pol cands (n - count_and f) (f :: fs) held chosen m next
  | InquireHeader l next => exists gam, attributes_values pol l = Ok gam /\ In gam cands /\ (forall f, In f held -> ~ holds (fun a => In a gam) f) /\
      match m with O => False | S m => forall r, lawful_inquiry P size pol cands n fs held (gam :: chosen) m (next r) end
  end.

Section Inquiry.
Context {B : BilinearMap}.
Local Notation K := (bm_K B).
Variable P : platform.
Variable size : nat.
Variable F : byte_forms B.
Variable shake : list byte -> nat -> list byte.
Variable pol : policy.
Variable len : nat.

(** As [play_headers], with the attributes that the attacker chooses. *)
Fixpoint play_inquiry (mk : master_key B) (real : bool) (xs : list (K * K)) (ss : list K) (fs : list node)
    (uks : list (outcome (decryption_key B))) (u : list K) (p : inquirer B) : bool :=
  match p with
  | Conclude b => b
  | InquireKey e next => let uk := issue P mk uks (values u) e in play_inquiry mk real xs ss (formulas fs e) (uk :: uks) (skipn (needs fs e) u) (next uk)
  | InquireOther e next => let uk := issue P mk uks (values u) e in play_inquiry mk real xs ss (formulas fs e) (uk :: uks) (skipn (needs fs e) u) next
  | InquireHeader l next =>
      match xs, ss with
      | (x, x') :: xs, s :: ss => play_inquiry mk real xs ss fs uks u
          (next (if real then generate_symmetric_key P F shake pol (pub_key mk) l len (gt_gen_exp B x) s
                 else mismatched P F shake pol len (pub_key mk) l (gt_gen_exp B x') (gt_gen_exp B x) s))
      | _, _ => false
      end
  end.
Definition experiment_inquiry (start : master_public_key B -> delegation_key B -> inquirer B) (real : bool)
    (t : list K) (y : K) (u : list K) (xs : list (K * K)) (ss : list K) : bool :=
  match generate_master_key size (values (t ++ [y])) with
  | Ok mk => play_inquiry mk real xs ss [] [] u (start (pub_key mk) (del_key mk))
  | _ => false
  end.
Definition answers_true_inquiry {R} (start : R -> master_public_key B -> delegation_key B -> inquirer B)
    (elems : list K) (coins : list R) (n m : nat) (real : bool) : nat :=
  total coins (fun c => total (tuples (list_prod elems elems) m) (fun xs => total (tuples elems size) (fun t => total elems (fun y =>
    total (tuples elems m) (fun ss => total (tuples elems n) (fun u => bit (experiment_inquiry (start c) real t y u xs ss))))))).

(** The attacker of the experiment with messages. *)
Fixpoint inquires (xs : list (K * K)) (p : inquirer B) : chooser B :=
  match p with
  | Conclude b => Decide b
  | InquireKey e next => AskKey e (fun r => inquires xs (next r))
  | InquireOther e next => AskOther e (inquires xs next)
  | InquireHeader l next =>
      match xs, attributes_values pol l with
      | (x, x') :: xs, Ok gam => AskText gam (gt_gen_exp B x) (gt_gen_exp B x') (fun r => inquires xs (next (
          let* ct := r in let* header := ct_enc F ct in let* bytes := enc (gt_codec F) (gt_gen_exp B x) in Ok (shake bytes len, header))))
      | _, _ => Decide false
      end
  end.
Definition inquiry {R} (start : R -> master_public_key B -> delegation_key B -> inquirer B) (x : R * list (K * K))
    (pub : master_public_key B) (del : delegation_key B) : chooser B := inquires (snd x) (start (fst x) pub del).
End Inquiry.

(** ** Metadata and blocks *)
(** The experiment of [SealSpec], for attributes that the attacker chooses. *)
Inductive guest (B : BilinearMap) :=
| GuestAnswer (b : bool)
| GuestKey (e : event) (next : outcome (decryption_key B) -> guest B)
| GuestOther (e : event) (next : guest B)
| GuestHeader (l : list attribute) (m0 m1 : option metadata) (next : outcome (list byte) -> guest B)
| GuestBlock (i : nat) (u : list byte) (number : N) (m0 m1 : list byte) (next : outcome (list byte) -> guest B).
Arguments GuestAnswer {B}.
Arguments GuestKey {B}.
Arguments GuestOther {B}.
Arguments GuestHeader {B}.
Arguments GuestBlock {B}.

Fixpoint lawful_guest {B} (P : platform) (size : nat) (S : sym_scheme) (pol : policy) (cands : list (list N)) (n : nat) (fs held : list node)
    (chosen : list (list N)) (m k : nat) (p : guest B) : Prop :=
  match p with
  | GuestAnswer _ => True
  | GuestKey e next => proper P size fs e /\ forall f, formula_of fs e = Some f ->
      (forall gam, In gam chosen -> ~ holds (fun a => In a gam) f) /\ count_and f <= n /\
      forall r, lawful_guest P size S pol cands (n - count_and f) (f :: fs) (f :: held) chosen m k (next r)
  | GuestOther e next => proper P size fs e /\ forall f, formula_of fs e = Some f ->
      count_and f <= n /\ lawful_guest P size S pol cands (n - count_and f) (f :: fs) held chosen m k next
  | GuestHeader l m0 m1 next => same_size S m0 m1 /\
      exists gam, attributes_values pol l = Ok gam /\ In gam cands /\ (forall f, In f held -> ~ holds (fun a => In a gam) f) /\
      match m, k with O, _ | _, O => False | Datatypes.S m, Datatypes.S k => forall r, lawful_guest P size S pol cands n fs held (gam :: chosen) m k (next r) end
  | GuestBlock i u number m0 m1 next => length m0 = length m1 /\
      match k with O => False | Datatypes.S k => forall r, lawful_guest P size S pol cands n fs held chosen m k (next r) end
  end.

Section Guests.
Context {B : BilinearMap}.
Local Notation K := (bm_K B).
Variable P : platform.
Variable size : nat.
Variable S : sym_scheme.
Variable F : byte_forms B.
Variable shake : list byte -> nat -> list byte.
Variable pol : policy.
Variable max : N.

(** As [play_client]. *)
Fixpoint play_guest (mk : master_key B) (w : bool) (xs ss : list K) (nonces : list (list byte)) (fs : list node)
    (uks : list (outcome (decryption_key B))) (keys : list (outcome (list byte))) (u : list K) (p : guest B) : bool :=
  match p with
  | GuestAnswer b => b
  | GuestKey e next => let uk := issue P mk uks (values u) e in play_guest mk w xs ss nonces (formulas fs e) (uk :: uks) keys (skipn (needs fs e) u) (next uk)
  | GuestOther e next => let uk := issue P mk uks (values u) e in play_guest mk w xs ss nonces (formulas fs e) (uk :: uks) keys (skipn (needs fs e) u) next
  | GuestHeader l m0 m1 next =>
      match xs, ss, nonces with
      | x :: xs, s :: ss, nonce :: nonces =>
          let h := encrypt_hybrid_header S F shake P pol (pub_key mk) l (if w then m1 else m0) (gt_gen_exp B x) s nonce in
          play_guest mk w xs ss nonces fs uks (keys ++ [let* h := h in Ok (eh_key h)]) u (next (let* h := h in Ok (eh_bytes h)))
      | _, _, _ => false
      end
  | GuestBlock i v number m0 m1 next =>
      match nonces with
      | nonce :: nonces => play_guest mk w xs ss nonces fs uks keys u (next (block_for S max keys i v number nonce (if w then m1 else m0)))
      | [] => false
      end
  end.
Definition experiment_guest (start : master_public_key B -> delegation_key B -> guest B) (w : bool)
    (xs t : list K) (y : K) (ss u : list K) (nonces : list (list byte)) : bool :=
  match generate_master_key size (values (t ++ [y])) with
  | Ok mk => play_guest mk w xs ss nonces [] [] [] u (start (pub_key mk) (del_key mk))
  | _ => false
  end.
Definition answers_true_guest {R} (start : R -> master_public_key B -> delegation_key B -> guest B)
    (elems : list K) (coins : list R) (nonces : list (list byte)) (n m k : nat) (w : bool) : nat :=
  total coins (fun c => total (tuples elems m) (fun xs => total (tuples elems size) (fun t => total elems (fun y =>
    total (tuples elems m) (fun ss => total (tuples elems n) (fun u => total (tuples nonces k) (fun nc =>
      bit (experiment_guest (start c) w xs t y ss u nc)))))))).

(** The attacker that encrypts metadata and blocks itself, as [listens]. *)
Fixpoint overhears (w : bool) (nonces : list (list byte)) (keys : list (outcome (list byte))) (p : guest B) : inquirer B :=
  match p with
  | GuestAnswer b => Conclude b
  | GuestKey e next => InquireKey e (fun r => overhears w nonces keys (next r))
  | GuestOther e next => InquireOther e (overhears w nonces keys next)
  | GuestHeader l m0 m1 next =>
      match nonces with
      | nonce :: nonces => InquireHeader l (fun r => let h := finished S r (if w then m1 else m0) nonce in
          overhears w nonces (keys ++ [let* h := h in Ok (eh_key h)]) (next (let* h := h in Ok (eh_bytes h))))
      | [] => Conclude false
      end
  | GuestBlock i v number m0 m1 next =>
      match nonces with
      | nonce :: nonces => overhears w nonces keys (next (block_for S max keys i v number nonce (if w then m1 else m0)))
      | [] => Conclude false
      end
  end.
Definition guest_inquirer {R} (start : R -> master_public_key B -> delegation_key B -> guest B) (w : bool) (x : R * list (list byte))
    (pub : master_public_key B) (del : delegation_key B) : inquirer B := overhears w (snd x) [] (start (fst x) pub del).

(** The attacker of the symmetric scheme, as [separate]. *)
Fixpoint isolate (mk : master_key B) (xs ss : list K) (fs : list node)
    (uks : list (outcome (decryption_key B))) (known : list (outcome unit)) (u : list K) (p : guest B) : sealer :=
  match p with
  | GuestAnswer b => SealAnswer b
  | GuestKey e next => let uk := issue P mk uks (values u) e in isolate mk xs ss (formulas fs e) (uk :: uks) known (skipn (needs fs e) u) (next uk)
  | GuestOther e next => let uk := issue P mk uks (values u) e in isolate mk xs ss (formulas fs e) (uk :: uks) known (skipn (needs fs e) u) next
  | GuestHeader l m0 m1 next =>
      match xs, ss with
      | x :: xs, s :: ss =>
          let continue h := isolate mk xs ss fs uks (known ++ [let* _ := h in Ok tt]) u (next h) in
          match front P F pol mk l x s with
          | Ok front => SealMeta (length known) m0 m1 (fun r => continue (with_meta front r))
          | bad => SealMeta 0 None None (fun _ => continue bad)
          end
      | _, _ => SealAnswer false
      end
  | GuestBlock i v number m0 m1 next =>
      match nth i known (Err (InternalOperation "no such header")) with
      | Ok _ =>
          if (blen m0 =? 0)%N then SealMeta 0 None None (fun _ => isolate mk xs ss fs uks known u (next (Err EmptyPlaintext)))
          else if (max <? blen m0)%N then SealMeta 0 None None (fun _ => isolate mk xs ss fs uks known u (next (Err (InvalidSize "The data to encrypt is too large"))))
          else SealBlock i v number m0 m1 (fun r => isolate mk xs ss fs uks known u (next r))
      | Err e => SealMeta 0 None None (fun _ => isolate mk xs ss fs uks known u (next (Err e)))
      | Panic q => SealMeta 0 None None (fun _ => isolate mk xs ss fs uks known u (next (Panic q)))
      end
  end.
Definition isolated {R} (start : R -> master_public_key B -> delegation_key B -> guest B)
    (x : R * (list K * (list K * (K * (list K * list K))))) : sealer :=
  let '(c, (xs, (t, (y, (ss, u))))) := x in
  match generate_master_key size (values (t ++ [y])) with
  | Ok mk => isolate mk xs ss [] [] [] u (start c (pub_key mk) (del_key mk))
  | _ => SealAnswer false
  end.
End Guests.

(** The experiment in which an attacker chooses pairs of metadata and of plaintexts and sees headers and blocks of
    hybrid encryption, /repo/src/interfaces/hybrid_crypto/statics.rs, and the experiment with the symmetric scheme alone. *)
From Coq Require Import String Bool NArith ZArith Strings.Byte List.
From Verif Require Import Prelude Field Msp Spec Bilinear Scheme Codec SchemeCodec Policy Engine Hybrid CollusionSpec LuckSpec GameSpec ReductionSpec.
Import ListNotations.

(** ** With the hybrid scheme *)
(** What the attacker does next. *)
Inductive client (B : BilinearMap) :=
| Answer (b : bool)
| GetKey (e : event) (next : outcome (decryption_key B) -> client B)           (* the attacker gets the key *)
| OthersKey (e : event) (next : client B)                                      (* somebody else gets it *)
| GetHeader (m0 m1 : option metadata) (next : outcome (list byte) -> client B) (* a header with one of the two *)
| GetBlock (i : nat) (u : list byte) (number : N) (m0 m1 : list byte)          (* a block with one of the two, *)
    (next : outcome (list byte) -> client B).                                  (* for the header number [i] *)
Arguments Answer {B}.
Arguments GetKey {B}.
Arguments OthersKey {B}.
Arguments GetHeader {B}.
Arguments GetBlock {B}.

(** The length of what is encrypted is not secret. *)
Definition same_size (S : sym_scheme) (m0 m1 : option metadata) : Prop :=
  match m0, m1 with
  | None, None => True
  | Some a, Some b => exists x y, meta_to_bytes S a = Ok x /\ meta_to_bytes S b = Ok y /\ length x = length y
  | _, _ => False
  end.

(** No key of the attacker is satisfied by the attributes of a header; [n] values are enough for the keys, [m] headers and
    [k] nonces are needed at most. *)
Fixpoint lawful_client {B} (P : platform) (size : nat) (S : sym_scheme) (gams : list (list N)) (n : nat) (fs : list node) (m k : nat) (p : client B) : Prop :=
  match p with
  | Answer _ => True
  | GetKey e next => proper P size fs e /\ forall f, formula_of fs e = Some f ->
      (forall gam, In gam gams -> ~ holds (fun a => In a gam) f) /\ count_and f <= n /\
      forall r, lawful_client P size S gams (n - count_and f) (f :: fs) m k (next r)
  | OthersKey e next => proper P size fs e /\ forall f, formula_of fs e = Some f ->
      count_and f <= n /\ lawful_client P size S gams (n - count_and f) (f :: fs) m k next
  | GetHeader m0 m1 next => same_size S m0 m1 /\
      match m, k with O, _ | _, O => False | Datatypes.S m, Datatypes.S k => forall r, lawful_client P size S gams n fs m k (next r) end
  | GetBlock i u number m0 m1 next => length m0 = length m1 /\
      match k with O => False | Datatypes.S k => forall r, lawful_client P size S gams n fs m k (next r) end
  end.

(** ** With the symmetric scheme alone *)
(** Keys are numbered; nothing is seen but what is encrypted with them. *)
Inductive sealer :=
| SealAnswer (b : bool)
| SealMeta (i : nat) (m0 m1 : option metadata) (next : outcome (option (list byte * list byte)) -> sealer) (* nonce and ciphertext *)
| SealBlock (i : nat) (u : list byte) (number : N) (m0 m1 : list byte) (next : outcome (list byte) -> sealer).

Fixpoint lawful_sealer (S : sym_scheme) (k : nat) (p : sealer) {struct p} : Prop :=
  match p with
  | SealAnswer _ => True
  | SealMeta i m0 m1 next => same_size S m0 m1 /\ match k with O => False | Datatypes.S k => forall r, lawful_sealer S k (next r) end
  | SealBlock i u number m0 m1 next => length m0 = length m1 /\ match k with O => False | Datatypes.S k => forall r, lawful_sealer S k (next r) end
  end.

(** If [w] is true the second of the two is encrypted, otherwise the first. *)
Fixpoint play_sealer (S : sym_scheme) (keys : list (list byte)) (w : bool) (nonces : list (list byte)) (p : sealer) {struct p} : bool :=
  match p with
  | SealAnswer b => b
  | SealMeta i m0 m1 next =>
      match nonces with
      | [] => false
      | nonce :: nonces => play_sealer S keys w nonces (next (
          match (if w then m1 else m0) with
          | None => Ok None
          | Some m => let* b := meta_to_bytes S m in let* c := sym_encrypt S (nth i keys []) b nonce None in Ok (Some (nonce, c))
          end))
      end
  | SealBlock i u number m0 m1 next =>
      match nonces with
      | [] => false
      | nonce :: nonces => play_sealer S keys w nonces (next (block_encrypt S (nth i keys []) u number nonce (if w then m1 else m0)))
      end
  end.

Section Experiment.
Context {B : BilinearMap}.
Local Notation K := (bm_K B).
Variable P : platform.
Variable size : nat.
Variable S : sym_scheme.
Variable F : byte_forms B.
Variable shake : list byte -> nat -> list byte.
Variable pol : policy.
Variable max : N.                 (* the largest size of a block *)

(** A block for one of the headers, which have the keys [keys]. *)
Definition block_for (keys : list (outcome (list byte))) (i : nat) (u : list byte) (number : N) (nonce m : list byte) : outcome (list byte) :=
  let* key := nth i keys (Err (InternalOperation "no such header")) in encrypt_hybrid_block S max key u number nonce m.

(** What is answered to the attacker. [ls] are the attributes of the headers, [xs] the exponents of the elements from which their
    symmetric keys are made, [ss] the values drawn for their encryption, [u] those for the keys. *)
Fixpoint play_client (mk : master_key B) (w : bool) (ls : list (list attribute)) (xs ss : list K) (nonces : list (list byte)) (fs : list node)
    (uks : list (outcome (decryption_key B))) (keys : list (outcome (list byte))) (u : list K) (p : client B) : bool :=
  match p with
  | Answer b => b
  | GetKey e next => let uk := issue P mk uks (values u) e in play_client mk w ls xs ss nonces (formulas fs e) (uk :: uks) keys (skipn (needs fs e) u) (next uk)
  | OthersKey e next => let uk := issue P mk uks (values u) e in play_client mk w ls xs ss nonces (formulas fs e) (uk :: uks) keys (skipn (needs fs e) u) next
  | GetHeader m0 m1 next =>
      match ls, xs, ss, nonces with
      | l :: ls, x :: xs, s :: ss, nonce :: nonces =>
          let h := encrypt_hybrid_header S F shake P pol (pub_key mk) l (if w then m1 else m0) (gt_gen_exp B x) s nonce in
          play_client mk w ls xs ss nonces fs uks (keys ++ [let* h := h in Ok (eh_key h)]) u (next (let* h := h in Ok (eh_bytes h)))
      | _, _, _, _ => false
      end
  | GetBlock i v number m0 m1 next =>
      match nonces with
      | nonce :: nonces => play_client mk w ls xs ss nonces fs uks keys u (next (block_for keys i v number nonce (if w then m1 else m0)))
      | [] => false
      end
  end.

Definition experiment_client (ls : list (list attribute)) (start : master_public_key B -> delegation_key B -> client B) (w : bool)
    (xs t : list K) (y : K) (ss u : list K) (nonces : list (list byte)) : bool :=
  match generate_master_key size (values (t ++ [y])) with
  | Ok mk => play_client mk w ls xs ss nonces [] [] [] u (start (pub_key mk) (del_key mk))
  | _ => false
  end.
(** For how many draws the attacker answers [true]; [nonces] are the possible nonces. *)
Definition answers_true_client {R} (ls : list (list attribute)) (start : R -> master_public_key B -> delegation_key B -> client B)
    (elems : list K) (coins : list R) (nonces : list (list byte)) (n k : nat) (w : bool) : nat :=
  total coins (fun c => total (tuples elems (length ls)) (fun xs => total (tuples elems size) (fun t => total elems (fun y =>
    total (tuples elems (length ls)) (fun ss => total (tuples elems n) (fun u => total (tuples nonces k) (fun nc =>
      bit (experiment_client ls (start c) w xs t y ss u nc)))))))).

(** ** From the attacker to a listener of C112 *)
(** It gets symmetric keys with the headers, encrypts with them itself, and always the second if [w] is true, the first otherwise. *)
Definition finished (r : outcome (list byte * list byte)) (meta : option metadata) (nonce : list byte) : outcome encrypted_header :=
  let* (sk_bytes, encrypted_sk) := r in
  let* symmetric_key := array_from (key_length S) sk_bytes in
  let* size := u32_len encrypted_sk in
  let header := size ++ encrypted_sk in
  let* header :=
    match meta with
    | Some meta =>
        let* m := meta_to_bytes S meta in
        let* em := sym_encrypt S symmetric_key m nonce None in
        let* size := u32_len em in
        Ok (header ++ nonce ++ size ++ em)
    | None => Ok header
    end in
  Ok (mkEncHeader symmetric_key header).
Fixpoint listens (w : bool) (nonces : list (list byte)) (keys : list (outcome (list byte))) (p : client B) : listener B :=
  match p with
  | Answer b => Verdict b
  | GetKey e next => HearKey e (fun r => listens w nonces keys (next r))
  | OthersKey e next => HearOther e (listens w nonces keys next)
  | GetHeader m0 m1 next =>
      match nonces with
      | nonce :: nonces => HearHeader (fun r => let h := finished r (if w then m1 else m0) nonce in
          listens w nonces (keys ++ [let* h := h in Ok (eh_key h)]) (next (let* h := h in Ok (eh_bytes h))))
      | [] => Verdict false
      end
  | GetBlock i v number m0 m1 next =>
      match nonces with
      | nonce :: nonces => listens w nonces keys (next (block_for keys i v number nonce (if w then m1 else m0)))
      | [] => Verdict false
      end
  end.
Definition client_listener {R} (start : R -> master_public_key B -> delegation_key B -> client B) (w : bool) (x : R * list (list byte))
    (pub : master_public_key B) (del : delegation_key B) : listener B := listens w (snd x) [] (start (fst x) pub del).
Definition client_coins {R} (coins : list R) (nonces : list (list byte)) (k : nat) : list (R * list (list byte)) := list_prod coins (tuples nonces k).

(** ** From the attacker to one of the symmetric scheme *)
(** It makes all keys of users and the headers itself, for elements that have nothing to do with the symmetric keys. *)
Definition front (mk : master_key B) (l : list attribute) (x s : K) : outcome (list byte) :=
  let* ct := eng_encrypt P pol (pub_key mk) l (gt_gen_exp B x) s in
  let* sk := ct_enc F ct in
  let* size := u32_len sk in
  Ok (size ++ sk).
Definition with_meta (front : list byte) (r : outcome (option (list byte * list byte))) : outcome (list byte) :=
  let* r := r in
  match r with
  | None => Ok front
  | Some (nonce, em) => let* size := u32_len em in Ok (front ++ nonce ++ size ++ em)
  end.
(** [known] tells which of the headers there are. *)
Fixpoint separate (mk : master_key B) (ls : list (list attribute)) (xs ss : list K) (fs : list node)
    (uks : list (outcome (decryption_key B))) (known : list (outcome unit)) (u : list K) (p : client B) : sealer :=
  match p with
  | Answer b => SealAnswer b
  | GetKey e next => let uk := issue P mk uks (values u) e in separate mk ls xs ss (formulas fs e) (uk :: uks) known (skipn (needs fs e) u) (next uk)
  | OthersKey e next => let uk := issue P mk uks (values u) e in separate mk ls xs ss (formulas fs e) (uk :: uks) known (skipn (needs fs e) u) next
  | GetHeader m0 m1 next =>
      match ls, xs, ss with
      | l :: ls, x :: xs, s :: ss =>
          let continue h := separate mk ls xs ss fs uks (known ++ [let* _ := h in Ok tt]) u (next h) in
          match front mk l x s with
          | Ok front => SealMeta (length known) m0 m1 (fun r => continue (with_meta front r))
          | bad => SealMeta 0 None None (fun _ => continue bad)
          end
      | _, _, _ => SealAnswer false
      end
  | GetBlock i v number m0 m1 next =>
      match nth i known (Err (InternalOperation "no such header")) with
      | Ok _ =>
          if (blen m0 =? 0)%N then SealMeta 0 None None (fun _ => separate mk ls xs ss fs uks known u (next (Err EmptyPlaintext)))
          else if (max <? blen m0)%N then SealMeta 0 None None (fun _ => separate mk ls xs ss fs uks known u (next (Err (InvalidSize "The data to encrypt is too large"))))
          else SealBlock i v number m0 m1 (fun r => separate mk ls xs ss fs uks known u (next r))
      | Err e => SealMeta 0 None None (fun _ => separate mk ls xs ss fs uks known u (next (Err e)))
      | Panic q => SealMeta 0 None None (fun _ => separate mk ls xs ss fs uks known u (next (Panic q)))
      end
  end.

(** What the sealer draws itself: the draws of the attacker, the exponents of the elements in the headers, those of the
    master key, the values for the encryptions and for the keys. *)
Definition separated {R} (ls : list (list attribute)) (start : R -> master_public_key B -> delegation_key B -> client B)
    (x : R * (list K * (list K * (K * (list K * list K))))) : sealer :=
  let '(c, (xs, (t, (y, (ss, u))))) := x in
  match generate_master_key size (values (t ++ [y])) with
  | Ok mk => separate mk ls xs ss [] [] [] u (start c (pub_key mk) (del_key mk))
  | _ => SealAnswer false
  end.
Definition separated_coins {R} (elems : list K) (coins : list R) (m n : nat) :=
  list_prod coins (list_prod (tuples elems m) (list_prod (tuples elems size) (list_prod elems (list_prod (tuples elems m) (tuples elems n))))).

(** The experiment with the symmetric scheme: every key is made from the element with a random exponent. *)
Definition key_from (x : K) : list byte := shake (to_compressed (gt_form B F) (gt_gen_exp B x)) (key_length S).
Definition answers_true_sealer {R} (start : R -> sealer) (elems : list K) (coins : list R) (nonces : list (list byte)) (m k : nat) (w : bool) : nat :=
  total coins (fun c => total (tuples elems m) (fun xs => total (tuples nonces k) (fun nc =>
    bit (play_sealer S (map key_from xs) w nc (start c))))).
End Experiment.

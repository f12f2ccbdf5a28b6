(** Common notions of the model: the outcome of a Rust function, errors,
    panics, machine integers and checked access to sequences. *)
From Coq Require Import String NArith ZArith Bool Lia List.
Import ListNotations.

(** Parsing errors, /repo/src/error.rs:130-148. The payload text is dropped:
    it only repeats the input. *)
Inductive parsing_err :=
| UnexpectedCharacter
| UnexpectedEnd
| EmptyString
| RangeError
| RegexError
| ParseIntError
| UnsupportedOperand
| UnsupportedOperator.

(** Errors of the external crate abe_policy that the code can meet. The crate
    is not in /repo; only the cases visible through /repo are kept. *)
Inductive policy_err :=
| PolicyAttributeNotFound
| PolicyCapacityOverflow
| PolicyExistingAxis.

(** Errors, /repo/src/error.rs:14-83. Messages that are constant in the code are
    kept when they tell two errors apart; formatted payloads are dropped. *)
Inductive format_err :=
| CryptoError
| PolicyError (e : policy_err)
| NulError
| TryFromIntError
| ParsingError (e : parsing_err)
| FromHexError
| Utf8Error
| AttributeNotFound
| MissingAttribute (item axis_name : option string)
| MissingAxis (axis : string)
| ExpectedAttribute
| InvalidSize (msg : string)
| Deserialization (msg : string)
| InternalOperation (msg : string)
| InvalidFormula (msg : string)
| InvalidEncryptedData
| ConversionFailed
| EmptyPrivateKey
| EmptyCiphertext
| EmptyPlaintext
| InvalidHeaderSize (len : nat).

(** Reasons why a Rust function unwinds instead of returning. *)
Inductive panic :=
| IndexOutOfBounds
| SliceOutOfRange
| DivisionByZero
| ArithmeticOverflow
| MissingMapKey
| CapacityOverflow (* Vec::with_capacity above isize::MAX bytes *)
| UnwrapNone
| ExplicitPanic
| OutOfFuel (* not a Rust panic: a loop of the model ran out of its bound; proved unreachable *).

(** Result<T, FormatErr>, or a panic. *)
Inductive outcome (A : Type) :=
| Ok (a : A)
| Err (e : format_err)
| Panic (p : panic).
Arguments Ok {A} a.
Arguments Err {A} e.
Arguments Panic {A} p.

(** The [?] operator of Rust; panics propagate too. *)
Definition bind {A B} (m : outcome A) (k : A -> outcome B) : outcome B :=
  match m with
  | Ok a => k a
  | Err e => Err e
  | Panic p => Panic p
  end.

Declare Scope outcome_scope.
Delimit Scope outcome_scope with outcome.
Open Scope outcome_scope.
Notation "'let*' x ':=' m 'in' k" := (bind m (fun x => k))
  (at level 200, x pattern, m at level 100, k at level 200, right associativity)
  : outcome_scope.

(** iter().map(f).collect::<Result<Vec<_>, _>>(), or a for loop that pushes. *)
Fixpoint mapM {A B} (f : A -> outcome B) (l : list A) : outcome (list B) :=
  match l with
  | [] => Ok []
  | x :: t =>
      let* y := f x in
      let* ys := mapM f t in
      Ok (y :: ys)
  end.

(** l[i] *)
Definition index {A} (l : list A) (i : nat) : outcome A :=
  match nth_error l i with
  | Some x => Ok x
  | None => Panic IndexOutOfBounds
  end.

(** &l[i..] *)
Definition slice_from {A} (l : list A) (i : nat) : outcome (list A) :=
  if Nat.leb i (length l) then Ok (skipn i l) else Panic SliceOutOfRange.

(** &l[i..j] *)
Definition slice {A} (l : list A) (i j : nat) : outcome (list A) :=
  if Nat.leb i j && Nat.leb j (length l)
  then Ok (firstn (j - i) (skipn i l))
  else Panic SliceOutOfRange.

(** Vec::resize *)
Definition resize {A} (l : list A) (n : nat) (d : A) : list A :=
  firstn n l ++ repeat d (n - length l).

(** Rust build: width of usize and whether arithmetic overflow panics
    (debug profile) or wraps (release profile). *)
Record platform := mkPlatform {
  usize_bits : N;
  overflow_checks : bool
}.

Definition usize_modulus (P : platform) : N := (2 ^ usize_bits P)%N.

(** A usize result [r], given as an exact integer. *)
Definition usize_wrap (P : platform) (r : Z) : outcome N :=
  if ((0 <=? r) && (r <? Z.of_N (usize_modulus P)))%Z
  then Ok (Z.to_N r)
  else if overflow_checks P then Panic ArithmeticOverflow
       else Ok (Z.to_N (r mod Z.of_N (usize_modulus P))%Z).

Definition usize_add (P : platform) (a b : N) : outcome N :=
  usize_wrap P (Z.of_N a + Z.of_N b)%Z.
Definition usize_sub (P : platform) (a b : N) : outcome N :=
  usize_wrap P (Z.of_N a - Z.of_N b)%Z.
Definition usize_mul (P : platform) (a b : N) : outcome N :=
  usize_wrap P (Z.of_N a * Z.of_N b)%Z.

(** i32 addition. *)
Definition i32_min : Z := (- 2 ^ 31)%Z.
Definition i32_max : Z := (2 ^ 31 - 1)%Z.
Definition i32_range (z : Z) : Prop := (i32_min <= z <= i32_max)%Z.
Definition i32_wrap (z : Z) : Z := ((z + 2 ^ 31) mod 2 ^ 32 - 2 ^ 31)%Z.
Definition i32_add (P : platform) (a b : Z) : outcome Z :=
  let r := (a + b)%Z in
  if ((i32_min <=? r) && (r <=? i32_max))%Z then Ok r
  else if overflow_checks P then Panic ArithmeticOverflow
       else Ok (i32_wrap r).


(** ------------------------------------------------------------------ *)
(** Elementary facts. *)

Definition is_ok {A} (m : outcome A) : Prop := exists a, m = Ok a.
Definition is_err {A} (m : outcome A) : Prop := exists e, m = Err e.
Definition no_panic {A} (m : outcome A) : Prop := forall p, m <> Panic p.

Lemma bind_ok {A B} (m : outcome A) (k : A -> outcome B) b :
  bind m k = Ok b -> exists a, m = Ok a /\ k a = Ok b.
Proof. destruct m; simpl; intros H; try discriminate; eauto. Qed.

Lemma bind_err {A B} (m : outcome A) (k : A -> outcome B) e :
  bind m k = Err e -> m = Err e \/ exists a, m = Ok a /\ k a = Err e.
Proof.
  destruct m; simpl; intros H; try discriminate; [right; eauto|left; congruence].
Qed.

Lemma bind_panic {A B} (m : outcome A) (k : A -> outcome B) p :
  bind m k = Panic p -> m = Panic p \/ exists a, m = Ok a /\ k a = Panic p.
Proof.
  destruct m; simpl; intros H; try discriminate; [right; eauto|left; congruence].
Qed.

Lemma no_panic_ok {A} (a : A) : no_panic (Ok a).
Proof. intros p H; discriminate. Qed.

Lemma no_panic_err {A} e : no_panic (@Err A e).
Proof. intros p H; discriminate. Qed.

Lemma no_panic_bind {A B} (m : outcome A) (k : A -> outcome B) :
  no_panic m -> (forall a, m = Ok a -> no_panic (k a)) -> no_panic (bind m k).
Proof.
  intros Hm Hk p H. destruct m; simpl in *.
  - exact (Hk a eq_refl p H).
  - discriminate.
  - exact (Hm p0 eq_refl).
Qed.

Lemma no_panic_cases {A} (m : outcome A) : no_panic m <-> is_ok m \/ is_err m.
Proof.
  unfold no_panic, is_ok, is_err. destruct m; split; intros H.
  - left; eauto.
  - intros p H'; discriminate.
  - right; eauto.
  - intros p H'; discriminate.
  - exfalso; exact (H p eq_refl).
  - destruct H as [[a H]|[e H]]; discriminate.
Qed.

Lemma mapM_ok_map {A B} (f : A -> outcome B) (g : A -> B) l :
  (forall x, In x l -> f x = Ok (g x)) -> mapM f l = Ok (map g l).
Proof.
  induction l as [|x t IH]; simpl; intros H; [reflexivity|].
  rewrite (H x (or_introl eq_refl)); simpl.
  rewrite IH by (intros y Hy; apply H; right; exact Hy). reflexivity.
Qed.

Lemma mapM_ok_inv {A B} (f : A -> outcome B) l ys :
  mapM f l = Ok ys -> Forall2 (fun x y => f x = Ok y) l ys.
Proof.
  revert ys; induction l as [|x t IH]; simpl; intros ys H.
  - injection H as <-. constructor.
  - apply bind_ok in H as (y & Hy & H). apply bind_ok in H as (zs & Hz & H).
    injection H as <-. constructor; auto.
Qed.

Lemma Forall2_length_eq {A B} (R : A -> B -> Prop) l1 l2 :
  Forall2 R l1 l2 -> length l1 = length l2.
Proof. induction 1; simpl; congruence. Qed.

Lemma mapM_length {A B} (f : A -> outcome B) l ys :
  mapM f l = Ok ys -> length ys = length l.
Proof. intros H; apply mapM_ok_inv in H; symmetry; eapply Forall2_length_eq; eauto. Qed.

Lemma mapM_no_panic {A B} (f : A -> outcome B) l :
  (forall x, In x l -> no_panic (f x)) -> no_panic (mapM f l).
Proof.
  induction l as [|x t IH]; simpl; intros H; [apply no_panic_ok|].
  apply no_panic_bind; [apply H; auto|]. intros y _.
  apply no_panic_bind; [apply IH; auto|]. intros; apply no_panic_ok.
Qed.

Lemma index_ok {A} (l : list A) i x : index l i = Ok x <-> nth_error l i = Some x.
Proof. unfold index; destruct (nth_error l i); split; intros H; congruence. Qed.

Lemma index_panic {A} (l : list A) i p :
  index l i = Panic p -> length l <= i.
Proof.
  unfold index; destruct (nth_error l i) eqn:E; intros H; [discriminate|].
  apply nth_error_None; exact E.
Qed.

Lemma index_lt {A} (l : list A) i : i < length l -> exists x, index l i = Ok x.
Proof.
  intros H. unfold index. destruct (nth_error l i) eqn:E; [eauto|].
  apply nth_error_None in E; lia.
Qed.

Lemma index_ge {A} (l : list A) i : length l <= i -> index l i = Panic IndexOutOfBounds.
Proof. intros H; unfold index. apply nth_error_None in H; rewrite H; reflexivity. Qed.

Lemma resize_length {A} (l : list A) n d : length (resize l n d) = n.
Proof.
  unfold resize. rewrite app_length, firstn_length, repeat_length. lia.
Qed.

Lemma resize_le {A} (l : list A) n d :
  length l <= n -> resize l n d = l ++ repeat d (n - length l).
Proof. intros H; unfold resize; rewrite firstn_all2 by exact H; reflexivity. Qed.

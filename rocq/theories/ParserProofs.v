(** Proofs about the parser. *)
From Coq Require Import String Ascii NArith ZArith Bool Lia List.
From Verif Require Import Prelude Msp Spec Parser ParserSpec CodecProofs.
Import ListNotations.
Local Open Scope N_scope.

Lemma digit_bool c : is_digit c = true <-> digit c.
Proof. unfold is_digit, digit. rewrite andb_true_iff, !N.leb_le. tauto. Qed.

(** ** Digits *)
Lemma take_digits_spec s : forall d r, take_digits s = (d, r) ->
  s = d ++ r /\ Forall digit d /\ (forall c r', r = c :: r' -> ~ digit c).
Proof.
  induction s as [|c t IH]; cbn [take_digits]; intros d r E.
  - assert (d = [] /\ r = []) as [-> ->] by (split; congruence). split; [reflexivity|]. split; [constructor|discriminate].
  - destruct (is_digit c) eqn:Ed.
    + destruct (take_digits t) as [d' r'] eqn:Et. assert (d = c :: d' /\ r = r') as [-> ->] by (split; congruence).
      destruct (IH d' r' eq_refl) as (-> & F & N0). split; [reflexivity|]. split; [constructor; [apply digit_bool; exact Ed|exact F]|exact N0].
    + assert (d = [] /\ r = c :: t) as [-> ->] by (split; congruence). split; [reflexivity|]. split; [constructor|].
      intros c' r' Q. assert (c' = c) by congruence. subst c'. intros Hd. apply digit_bool in Hd. congruence.
Qed.

Lemma take_digits_app d r : Forall digit d -> (forall c r', r = c :: r' -> ~ digit c) -> take_digits (d ++ r) = (d, r).
Proof.
  intros F Hr. induction F as [|c d Hc F IH]; cbn [app].
  - destruct r as [|c r']; [reflexivity|]. cbn [take_digits]. destruct (is_digit c) eqn:E; [|reflexivity].
    exfalso. apply (Hr c r' eq_refl). apply digit_bool. exact E.
  - cbn [take_digits]. apply digit_bool in Hc. rewrite Hc, IH. reflexivity.
Qed.

Lemma decimal_from_ge s : forall acc, acc <= fold_left (fun acc c => 10 * acc + (c - 48)) s acc.
Proof.
  induction s as [|c t IH]; intros acc; cbn [fold_left]; [lia|]. specialize (IH (10 * acc + (c - 48))). lia.
Qed.

Lemma parse_u32_from_spec s : forall acc, acc < 4294967296 ->
  let v := fold_left (fun acc c => 10 * acc + (c - 48)) s acc in
  parse_u32_from acc s = if v <? 4294967296 then Ok v else Err (ParsingError ParseIntError).
Proof.
  induction s as [|c t IH]; intros acc Ha; cbn [fold_left parse_u32_from].
  - destruct (N.ltb_spec acc 4294967296); [reflexivity|lia].
  - pose proof (decimal_from_ge t (10 * acc + (c - 48))) as G.
    destruct (N.leb_spec 4294967296 (acc * 10)) as [H|H].
    + destruct (N.ltb_spec (fold_left (fun acc c => 10 * acc + (c - 48)) t (10 * acc + (c - 48))) 4294967296); [lia|reflexivity].
    + replace (acc * 10 + (c - 48)) with (10 * acc + (c - 48)) by lia.
      destruct (N.leb_spec 4294967296 (10 * acc + (c - 48))) as [H2|H2].
      * destruct (N.ltb_spec (fold_left (fun acc c => 10 * acc + (c - 48)) t (10 * acc + (c - 48))) 4294967296); [lia|reflexivity].
      * apply IH. exact H2.
Qed.

Lemma parse_u32_spec s : s <> [] ->
  parse_u32 s = if decimal s <? 4294967296 then Ok (decimal s) else Err (ParsingError ParseIntError).
Proof. intros H. unfold parse_u32, decimal. destruct s as [|c t]; [contradiction|]. apply parse_u32_from_spec. lia. Qed.

(** ** Parentheses *)
Definition depth_step (c : N) : Z := if c =? ch_open then 1%Z else if c =? ch_close then (-1)%Z else 0%Z.
Definition depth (s : list N) : Z := fold_right (fun c z => (depth_step c + z)%Z) 0%Z s.

Lemma depth_cons c s : depth (c :: s) = (depth_step c + depth s)%Z.
Proof. reflexivity. Qed.

Lemma depth_app a b : depth (a ++ b) = (depth a + depth b)%Z.
Proof. induction a as [|c t IH]; [reflexivity|]. cbn [app]. rewrite !depth_cons. lia. Qed.

Lemma depth_le s : (depth s <= Z.of_nat (length s))%Z.
Proof.
  induction s as [|c t IH]; [cbn; lia|]. rewrite depth_cons. cbn [length]. unfold depth_step.
  destruct (c =? ch_open), (c =? ch_close); lia.
Qed.

Lemma i32_add_step P c count : (0 <= count < i32_max)%Z ->
  (if c =? ch_open then i32_add P count 1 else if c =? ch_close then i32_add P count (-1) else Ok count)
  = Ok (count + depth_step c)%Z.
Proof.
  intros H. unfold depth_step, i32_add. unfold i32_max in *. unfold i32_min.
  destruct (c =? ch_open); [|destruct (c =? ch_close)].
  - destruct (Z.leb_spec (- 2 ^ 31) (count + 1)), (Z.leb_spec (count + 1) (2 ^ 31 - 1)); cbn [andb]; try reflexivity; lia.
  - destruct (Z.leb_spec (- 2 ^ 31) (count + -1)), (Z.leb_spec (count + -1) (2 ^ 31 - 1)); cbn [andb]; try reflexivity; lia.
  - f_equal. lia.
Qed.

(** what the search returns *)
Lemma find_close_spec P : forall s count i, (0 <= count)%Z -> (count + Z.of_nat (length s) <= i32_max)%Z ->
  (exists b r, s = b ++ ch_close :: r /\ find_close P s count i = Ok (i + length b)%nat /\
     (forall p q, b = p ++ q -> 0 <= count + depth p)%Z /\ (count + depth b = 0)%Z) \/
  (find_close P s count i = Ok 0%nat /\ (forall p q, s = p ++ q -> 0 <= count + depth p)%Z).
Proof.
  induction s as [|c t IH]; intros count i Hc Hl.
  - right. split; [reflexivity|]. intros p q E. symmetry in E. apply app_eq_nil in E as [-> _]. cbn. lia.
  - cbn [length] in Hl. cbn [find_close]. rewrite i32_add_step by lia. cbn [bind].
    destruct (Z.ltb_spec (count + depth_step c) 0) as [H|H].
    + left. exists [], t. unfold depth_step in H.
      assert (Ec : c = ch_close /\ count = 0%Z).
      { destruct (N.eqb_spec c ch_open); [lia|]. destruct (N.eqb_spec c ch_close) as [->|]; [split; [reflexivity|lia]|lia]. }
      destruct Ec as [-> ->]. split; [reflexivity|]. split; [rewrite Nat.add_0_r; reflexivity|]. split; [|reflexivity].
      intros p q E. symmetry in E. apply app_eq_nil in E as [-> _]. cbn. lia.
    + assert (Hs : (depth_step c <= 1)%Z) by (unfold depth_step; destruct (c =? ch_open), (c =? ch_close); lia).
      destruct (IH (count + depth_step c)%Z (S i) H ltac:(lia)) as [(b & r & -> & E & A & D)|(E & A)].
      * left. exists (c :: b), r. split; [reflexivity|]. split; [rewrite E; f_equal; cbn [length]; lia|].
        split; [|rewrite depth_cons; lia].
        intros p q Q. destruct p as [|c' p]; [cbn; lia|]. cbn [app] in Q. assert (c' = c /\ b = p ++ q) as [-> Q'] by (split; congruence).
        specialize (A p q Q'). rewrite depth_cons. lia.
      * right. split; [exact E|]. intros p q Q. destruct p as [|c' p]; [cbn; lia|]. cbn [app] in Q.
        assert (c' = c /\ t = p ++ q) as [-> Q'] by (split; congruence).
        specialize (A p q Q'). rewrite depth_cons. lia.
Qed.

(** balanced texts *)
Definition balanced (s : list N) : Prop := depth s = 0%Z /\ forall p q, s = p ++ q -> (0 <= depth p)%Z.

Lemma app_split {A} (a b p q : list A) : a ++ b = p ++ q ->
  (exists r, p = a ++ r /\ b = r ++ q) \/ (exists r, a = p ++ r /\ q = r ++ b).
Proof.
  revert p; induction a as [|x t IH]; intros p E.
  - left. exists p. auto.
  - destruct p as [|y p].
    + right. exists (x :: t). auto.
    + cbn [app] in E. assert (x = y /\ t ++ b = p ++ q) as [-> E'] by (split; congruence).
      destruct (IH p E') as [(r & -> & ->)|(r & -> & ->)]; [left|right]; exists r; auto.
Qed.

Lemma balanced_app a b : balanced a -> balanced b -> balanced (a ++ b).
Proof.
  intros [Da Pa] [Db Pb]. split; [rewrite depth_app; lia|]. intros p q E.
  apply app_split in E as [(r & -> & E)|(r & E & _)].
  - rewrite depth_app. specialize (Pb r q E). lia.
  - exact (Pa p r E).
Qed.

Lemma balanced_plain s : Forall (fun c => c <> ch_open /\ c <> ch_close) s -> balanced s.
Proof.
  assert (D : forall s, Forall (fun c => c <> ch_open /\ c <> ch_close) s -> depth s = 0%Z).
  { clear. intros s F. induction F as [|c t [H1 H2] F IH]; [reflexivity|]. rewrite depth_cons. rewrite IH.
    unfold depth_step. destruct (N.eqb_spec c ch_open); [contradiction|]. destruct (N.eqb_spec c ch_close); [contradiction|]. reflexivity. }
  intros F. split; [apply D; exact F|]. intros p q ->. apply Forall_app in F as [F _]. rewrite D by exact F. lia.
Qed.

Lemma balanced_paren s : balanced s -> balanced (codes "(" ++ s ++ codes ")").
Proof.
  intros [D Pr]. split.
  - rewrite !depth_app, D. reflexivity.
  - intros p q E. destruct p as [|c p]; [cbn; lia|]. cbn [codes app] in E.
    match type of E with ?x :: _ = _ => assert (c = x /\ s ++ codes ")" = p ++ q) as [-> E'] by (split; [congruence|cbn [codes]; congruence]) end.
    rewrite depth_cons. change (depth_step (N_of_ascii "(")) with 1%Z.
    apply app_split in E' as [(r & -> & E')|(r & E' & _)].
    + rewrite depth_app, D. pose proof (depth_le q). destruct r as [|x r]; [cbn; lia|].
      destruct r as [|y r]; [|cbn [codes app] in E'; apply (f_equal (@length N)) in E'; cbn [length app] in E'; rewrite ?app_length in E'; cbn [length] in E'; lia].
      cbn [codes app] in E'. injection E' as E1 E2. subst x. cbn. lia.
    + specialize (Pr p r E'). lia.
Qed.

Lemma grammar_balanced : (forall s f, term s f -> balanced s) /\ (forall s f, expr s f -> balanced s).
Proof.
  apply term_expr_ind.
  - intros ds _ F _. apply balanced_plain. eapply Forall_impl; [|exact F]. intros c Hc. unfold digit, ch_open, ch_close in *. lia.
  - intros e f _ IH. apply balanced_paren. exact IH.
  - intros t f _ IH. exact IH.
  - intros t a e b _ IH1 _ IH2. apply balanced_app; [exact IH1|]. apply balanced_app; [|exact IH2].
    apply balanced_plain. constructor; [split; discriminate|constructor].
  - intros t a e b _ IH1 _ IH2. apply balanced_app; [exact IH1|]. apply balanced_app; [|exact IH2].
    apply balanced_plain. constructor; [split; discriminate|constructor].
Qed.

(** the search finds the parenthesis that closes a balanced text *)
Lemma find_close_balanced P e r : balanced e -> (Z.of_nat (length (e ++ ch_close :: r)) <= i32_max)%Z ->
  find_close P (e ++ ch_close :: r) 0 0 = Ok (length e).
Proof.
  intros [D Pr] L. destruct (find_close_spec P (e ++ ch_close :: r) 0 0 ltac:(lia) ltac:(lia)) as [(b & r' & E & F & A & Db)|(_ & A)].
  - rewrite F. cbn [Nat.add]. f_equal.
    apply app_split in E as [(x & Eb & Er)|(x & Ee & Er)].
    + destruct x as [|c x]; [rewrite app_nil_r in Eb; subst; reflexivity|].
      exfalso. cbn [app] in Er. assert (c = ch_close) by congruence. subst c.
      specialize (A (e ++ [ch_close]) x). rewrite Eb in A. rewrite <- app_assoc in A. specialize (A eq_refl).
      rewrite depth_app, D in A. cbn in A. lia.
    + destruct x as [|c x]; [rewrite app_nil_r in Ee; subst; reflexivity|].
      exfalso. cbn [app] in Er. assert (c = ch_close) by congruence. subst c.
      specialize (Pr (b ++ [ch_close]) x). rewrite Ee in Pr. rewrite <- app_assoc in Pr. specialize (Pr eq_refl).
      rewrite depth_app in Pr. cbn in Pr. lia.
  - exfalso. specialize (A (e ++ [ch_close]) r). rewrite <- app_assoc in A. specialize (A eq_refl). rewrite depth_app, D in A. cbn in A. lia.
Qed.

(** ** Characters *)
Definition unspace (s : list N) : list N := filter (fun c => negb (c =? ch_space)) s.

Definition plain (c : N) : Prop := authorized c = true /\ c <> ch_space.

Lemma unspace_plain s : Forall plain s -> unspace s = s.
Proof.
  intros F. induction F as [|c t [_ H] F IH]; [reflexivity|]. unfold unspace in *. cbn [filter].
  destruct (N.eqb_spec c ch_space); [contradiction|]. cbn [negb]. rewrite IH. reflexivity.
Qed.

Lemma authorized_ok s : Forall (fun c => authorized c = true) s -> existsb (fun c => negb (authorized c)) s = false.
Proof.
  intros F. induction F as [|c t H F IH]; [reflexivity|]. cbn [existsb]. rewrite H, IH. reflexivity.
Qed.

Lemma authorized_inv s : existsb (fun c => negb (authorized c)) s = false -> Forall (fun c => authorized c = true) s.
Proof.
  induction s as [|c t IH]; cbn [existsb]; intros H; [constructor|]. apply orb_false_elim in H as [H1 H2].
  constructor; [|apply IH; exact H2]. apply negb_false_iff. exact H1.
Qed.

Lemma unspace_is_plain s : Forall (fun c => authorized c = true) s -> Forall plain (unspace s).
Proof.
  intros F. apply Forall_forall. intros c Hc. apply filter_In in Hc as [Hin Hs]. rewrite Forall_forall in F.
  split; [apply F; exact Hin|]. intros ->. discriminate.
Qed.

Lemma unspace_length s : (length (unspace s) <= length s)%nat.
Proof.
  unfold unspace. induction s as [|c t IH]; [apply le_n|]. cbn [filter]. destruct (negb (c =? ch_space)); cbn [length]; lia.
Qed.

Lemma spaced_unspace s t : spaced s t <-> unspace s = t.
Proof.
  split.
  - induction 1 as [|s t H IH|c s t Hc H IH]; [reflexivity|exact IH|]. unfold unspace in *. cbn [filter].
    destruct (N.eqb_spec c ch_space); [contradiction|]. cbn [negb]. rewrite IH. reflexivity.
  - revert t; induction s as [|c s IH]; intros t E.
    + subst. constructor.
    + unfold unspace in E. cbn [filter] in E. fold (unspace s) in E. destruct (N.eqb_spec c ch_space) as [->|Hc]; cbn [negb] in E.
      * apply sp_space. apply IH. exact E.
      * subst t. apply sp_char; [exact Hc|]. apply IH. reflexivity.
Qed.

Lemma grammar_plain : (forall s f, term s f -> Forall plain s) /\ (forall s f, expr s f -> Forall plain s).
Proof.
  assert (Q : forall x, In x [40; 41; 38; 124] -> plain x).
  { intros x H. cbn [In] in H. destruct H as [<-|[<-|[<-|[<-|[]]]]]; (split; [reflexivity|discriminate]). }
  apply term_expr_ind.
  - intros ds _ F _. eapply Forall_impl; [|exact F]. intros c Hc. split.
    + unfold authorized. apply digit_bool in Hc. rewrite Hc. apply orb_true_r.
    + unfold digit, ch_space in *. lia.
  - intros e f _ IH. cbn [codes app]. constructor; [apply Q; cbn; auto|]. apply Forall_app. split; [exact IH|].
    constructor; [apply Q; cbn; auto|constructor].
  - intros t f _ IH. exact IH.
  - intros t a e b _ IH1 _ IH2. apply Forall_app. split; [exact IH1|]. cbn [codes app]. constructor; [apply Q; cbn; auto|exact IH2].
  - intros t a e b _ IH1 _ IH2. apply Forall_app. split; [exact IH1|]. cbn [codes app]. constructor; [apply Q; cbn; auto|exact IH2].
Qed.

Lemma grammar_nonempty : (forall s f, term s f -> s <> []) /\ (forall s f, expr s f -> s <> []).
Proof.
  apply term_expr_ind; try (intros; assumption).
  - intros e f _ _. cbn [codes app]. discriminate.
  - intros t a e b _ H _ _ E. apply app_eq_nil in E as [E _]. contradiction.
  - intros t a e b _ H _ _ E. apply app_eq_nil in E as [E _]. contradiction.
Qed.

(** ** One step of the parser on plain text *)
Lemma slice_prefix {A} (a b : list A) : slice (a ++ b) 0 (length a) = Ok a.
Proof.
  unfold slice. rewrite app_length. destruct (Nat.leb_spec (length a) (length a + length b)); [|lia]. cbn [Nat.leb andb].
  rewrite Nat.sub_0_r. cbn [skipn]. rewrite firstn_app, firstn_all, Nat.sub_diag, firstn_O, app_nil_r. reflexivity.
Qed.

Lemma slice_from_suffix {A} (a b : list A) : slice_from (a ++ b) (length a) = Ok b.
Proof.
  unfold slice_from. rewrite app_length. destruct (Nat.leb_spec (length a) (length a + length b)); [|lia].
  rewrite skipn_app, skipn_all, Nat.sub_diag. reflexivity.
Qed.

Definition small_text (s : list N) : Prop := (Z.of_nat (length s) <= i32_max)%Z.

(** the continuation after a first term, on plain text *)
Definition after (fuel : nat) (P : platform) (first : outcome node) (rest : list N) : outcome node :=
  match rest with
  | [] => first
  | op :: e =>
      if op =? ch_and then let* a := first in let* b := parse_fuel fuel P e in Ok (And a b)
      else if op =? ch_or then let* a := first in let* b := parse_fuel fuel P e in Ok (Or a b)
      else Err (ParsingError UnsupportedOperator)
  end.

Definition guard (s : list N) : bool := match s with [] => true | _ => false end || existsb (fun c => negb (authorized c)) s.

Lemma parse_integer fuel P s ds rest : guard s = false -> unspace s = ds ++ rest -> ds <> [] -> Forall digit ds ->
  (forall c r', rest = c :: r' -> ~ digit c) ->
  parse_fuel (S fuel) P s =
  if decimal ds <? 4294967296 then after fuel P (Ok (Leaf (decimal ds))) rest else Err (ParsingError ParseIntError).
Proof.
  intros G U Hne F Hr. cbn [parse_fuel]. fold (guard s). rewrite G. fold (unspace s). rewrite U, (take_digits_app ds rest F Hr).
  destruct ds as [|d ds']; [contradiction|]. rewrite parse_u32_spec by discriminate.
  destruct (decimal (d :: ds') <? 4294967296); cbn [bind]; [|reflexivity].
  destruct rest as [|op e]; [reflexivity|]. unfold after. cbn [bind]. destruct (op =? ch_and); [reflexivity|].
  destruct (op =? ch_or); reflexivity.
Qed.

Lemma existsb_close b r : existsb (N.eqb ch_close) (b ++ ch_close :: r) = true.
Proof. rewrite existsb_app. cbn [existsb]. rewrite N.eqb_refl. apply orb_true_r. Qed.

Lemma parse_parenthesis fuel P s b rest : guard s = false -> unspace s = ch_open :: b ++ ch_close :: rest ->
  find_close P (b ++ ch_close :: rest) 0 0 = Ok (length b) ->
  parse_fuel (S fuel) P s = after fuel P (parse_fuel fuel P b) rest.
Proof.
  intros G U Hf. cbn [parse_fuel]. fold (guard s). rewrite G. fold (unspace s). rewrite U.
  cbn [take_digits]. change (is_digit ch_open) with false. cbn match. change (negb (ch_open =? ch_open)) with false. cbn match.
  rewrite existsb_close. cbn [negb]. rewrite Hf. cbn [bind]. rewrite slice_prefix. cbn [bind]. rewrite slice_from_suffix. cbn [bind].
  change (slice_from (ch_close :: rest) 1) with (slice_from ([ch_close] ++ rest) (length [ch_close])). rewrite slice_from_suffix. cbn [bind].
  destruct rest as [|op e]; reflexivity.
Qed.

(** ** Completeness: texts of the grammar are parsed *)
Lemma plain_guard s : s <> [] -> Forall plain s -> guard s = false.
Proof.
  intros Hne F. unfold guard. destruct s as [|c t]; [contradiction|]. cbn [orb]. apply authorized_ok.
  eapply Forall_impl; [|exact F]. intros x [H _]. exact H.
Qed.

Lemma op_not_digit : ~ digit ch_and /\ ~ digit ch_or.
Proof. unfold digit, ch_and, ch_or. lia. Qed.

Lemma parse_complete P :
  (forall t f, term t f -> forall s rest fuel, guard s = false -> unspace s = t ++ rest -> small_text s ->
     (length (unspace s) <= fuel)%nat -> (forall c r', rest = c :: r' -> ~ digit c) ->
     parse_fuel (S fuel) P s = after fuel P (Ok f) rest) /\
  (forall e f, expr e f -> forall s fuel, guard s = false -> unspace s = e -> small_text s ->
     (length e <= fuel)%nat -> parse_fuel (S fuel) P s = Ok f).
Proof.
  apply term_expr_ind.
  - intros ds Hne F Hv s rest fuel G U _ _ Hr. rewrite (parse_integer fuel P s ds rest G U Hne F Hr).
    apply N.ltb_lt in Hv. rewrite Hv. reflexivity.
  - intros e f He IH s rest fuel G U Hs Hl Hr. cbn [codes app] in U. rewrite <- app_assoc in U.
    change (N_of_ascii "(") with ch_open in U. change ([N_of_ascii ")"] ++ rest) with (ch_close :: rest) in U.
    assert (L : (length e + 2 <= length (unspace s))%nat) by (rewrite U; cbn [length]; rewrite app_length; cbn [length]; lia).
    pose proof (unspace_length s) as UL. unfold small_text in Hs.
    assert (Hf : find_close P (e ++ ch_close :: rest) 0 0 = Ok (length e)).
    { apply find_close_balanced; [apply (proj2 grammar_balanced e f He)|].
      apply (f_equal (@length N)) in U. cbn [length] in U. lia. }
    rewrite (parse_parenthesis fuel P s e rest G U Hf).
    destruct fuel as [|fuel]; [lia|].
    assert (Pe : Forall plain e) by apply (proj2 grammar_plain e f He).
    rewrite (IH e fuel); [destruct rest as [|op r]; reflexivity| | | |].
    + apply plain_guard; [apply (proj2 grammar_nonempty e f He)|exact Pe].
    + apply unspace_plain. exact Pe.
    + unfold small_text. lia.
    + lia.
  - intros t f Ht IH s fuel G U Hs Hl. rewrite (IH s [] fuel); auto; [rewrite app_nil_r; exact U|rewrite U; exact Hl|discriminate].
  - intros t a e b Ht IHt He IHe s fuel G U Hs Hl.
    rewrite app_length in Hl. cbn [codes length app] in Hl.
    pose proof (unspace_length s) as UL. unfold small_text in Hs.
    assert (Lu : length (unspace s) = (length t + S (length e))%nat) by (rewrite U, app_length; reflexivity).
    rewrite (IHt s (ch_and :: e) fuel G U Hs); [| |intros c r' Q; assert (c = ch_and) by congruence; subst; apply op_not_digit].
    + unfold after. change (ch_and =? ch_and) with true. cbn match. cbn [bind].
      destruct fuel as [|fuel]; [lia|].
      pose proof (proj2 grammar_plain e b He) as Pe.
      rewrite (IHe e fuel); [reflexivity| | |unfold small_text; lia|lia].
      * apply plain_guard; [apply (proj2 grammar_nonempty e b He)|exact Pe].
      * apply unspace_plain. exact Pe.
    + lia.
  - intros t a e b Ht IHt He IHe s fuel G U Hs Hl.
    rewrite app_length in Hl. cbn [codes length app] in Hl.
    pose proof (unspace_length s) as UL. unfold small_text in Hs.
    assert (Lu : length (unspace s) = (length t + S (length e))%nat) by (rewrite U, app_length; reflexivity).
    rewrite (IHt s (ch_or :: e) fuel G U Hs); [| |intros c r' Q; assert (c = ch_or) by congruence; subst; apply op_not_digit].
    + unfold after. change (ch_or =? ch_and) with false. change (ch_or =? ch_or) with true. cbn match. cbn [bind].
      destruct fuel as [|fuel]; [lia|].
      pose proof (proj2 grammar_plain e b He) as Pe.
      rewrite (IHe e fuel); [reflexivity| | |unfold small_text; lia|lia].
      * apply plain_guard; [apply (proj2 grammar_nonempty e b He)|exact Pe].
      * apply unspace_plain. exact Pe.
    + lia.
Qed.

(** ** Soundness and absence of panics *)
Lemma after_sound fuel P first t rest f :
  (forall a, first = Ok a -> term t a) ->
  (forall e b, parse_fuel fuel P e = Ok b -> (length e < length rest)%nat -> Forall plain e -> expr e b) ->
  Forall plain rest ->
  after fuel P first rest = Ok f -> expr (t ++ rest) f.
Proof.
  intros Ht He F H. destruct rest as [|op e]; cbn [after] in H.
  - rewrite app_nil_r. apply e_term. apply Ht. exact H.
  - inversion F as [|? ? _ Fe]; subst. destruct (N.eqb_spec op ch_and) as [->|_]; [|destruct (N.eqb_spec op ch_or) as [->|_]; [|discriminate]].
    + apply bind_ok in H as (a & Ha & H). apply bind_ok in H as (b & Hb & H). apply Ok_inj in H. subst f.
      apply (e_and t a e b); [apply Ht; exact Ha|]. apply He; [exact Hb|cbn [length]; lia|exact Fe].
    + apply bind_ok in H as (a & Ha & H). apply bind_ok in H as (b & Hb & H). apply Ok_inj in H. subst f.
      apply (e_or t a e b); [apply Ht; exact Ha|]. apply He; [exact Hb|cbn [length]; lia|exact Fe].
Qed.

Lemma after_no_panic fuel P first rest :
  no_panic first ->
  (forall e, (length e < length rest)%nat -> no_panic (parse_fuel fuel P e)) ->
  no_panic (after fuel P first rest).
Proof.
  intros Hf He. destruct rest as [|op e]; cbn [after]; [exact Hf|].
  destruct (op =? ch_and); [|destruct (op =? ch_or); [|apply no_panic_err]];
    (apply no_panic_bind; [exact Hf|]; intros a _; apply no_panic_bind; [apply He; cbn [length]; lia|]; intros; apply no_panic_ok).
Qed.

Lemma parse_empty fuel P : parse_fuel (S fuel) P [] = Err (ParsingError UnexpectedCharacter).
Proof. reflexivity. Qed.

(** an unmatched opening parenthesis: always an error *)
Lemma parse_unmatched fuel P s x : guard s = false -> unspace s = ch_open :: x ->
  existsb (N.eqb ch_close) x = true -> find_close P x 0 0 = Ok 0%nat -> (forall p q, x = p ++ q -> (0 <= depth p)%Z) ->
  is_err (parse_fuel (S (S fuel)) P s).
Proof.
  intros G U Hc Hf A.
  remember (S fuel) as k. cbn [parse_fuel]. fold (guard s). rewrite G. fold (unspace s). rewrite U.
  cbn [take_digits]. change (is_digit ch_open) with false. cbn match. change (negb (ch_open =? ch_open)) with false. cbn match.
  rewrite Hc. cbn [negb]. rewrite Hf. cbn [bind]. change (slice x 0 0) with (@Ok (list N) []). cbn [bind length].
  destruct x as [|c x]; [discriminate|]. change (slice_from (c :: x) 0) with (Ok (c :: x)). cbn [bind].
  change (slice_from (c :: x) 1) with (slice_from ([c] ++ x) (length [c])). rewrite slice_from_suffix. cbn [bind].
  destruct x as [|op e].
  - exfalso. cbn [existsb] in Hc. rewrite orb_false_r in Hc. apply N.eqb_eq in Hc. subst c. specialize (A [ch_close] [] eq_refl). cbn in A. lia.
  - subst k. rewrite parse_empty. cbn [bind]. destruct (op =? ch_and); [eexists; reflexivity|]. destruct (op =? ch_or); eexists; reflexivity.
Qed.

Lemma parse_cases fuel P s : small_text s ->
  (exists e, parse_fuel (S (S fuel)) P s = Err e) \/
  (exists ds rest, guard s = false /\ unspace s = ds ++ rest /\ ds <> [] /\ Forall digit ds /\ decimal ds < 4294967296 /\
     parse_fuel (S (S fuel)) P s = after (S fuel) P (Ok (Leaf (decimal ds))) rest) \/
  (exists b rest, guard s = false /\ unspace s = ch_open :: b ++ ch_close :: rest /\
     parse_fuel (S (S fuel)) P s = after (S fuel) P (parse_fuel (S fuel) P b) rest).
Proof.
  intros Hs. destruct (guard s) eqn:G.
  { left. exists (ParsingError UnexpectedCharacter). remember (S fuel) as k. cbn [parse_fuel]. fold (guard s). rewrite G. reflexivity. }
  destruct (take_digits (unspace s)) as [ds rest] eqn:T. destruct (take_digits_spec _ _ _ T) as (U & F & Hr).
  destruct ds as [|d ds].
  - cbn [app] in U. destruct (unspace s) as [|c x] eqn:Us.
    { left. exists (ParsingError UnexpectedEnd). remember (S fuel) as k. cbn [parse_fuel]. fold (guard s). rewrite G. fold (unspace s). rewrite Us. reflexivity. }
    destruct (N.eqb_spec c ch_open) as [->|Hc].
    + destruct (existsb (N.eqb ch_close) x) eqn:Ex.
      * pose proof (unspace_length s) as UL. rewrite Us in UL. cbn [length] in UL. unfold small_text in Hs.
        destruct (find_close_spec P x 0 0 ltac:(lia) ltac:(lia)) as [(b & r & -> & Ef & _ & _)|(Ef & A)].
        -- right. right. exists b, r. split; [reflexivity|]. split; [reflexivity|]. cbn [Nat.add] in Ef.
           apply parse_parenthesis; [exact G|exact Us|exact Ef].
        -- left. apply (parse_unmatched fuel P s x G Us Ex Ef). intros p q E. specialize (A p q E). lia.
      * left. exists (ParsingError UnexpectedCharacter). remember (S fuel) as k. cbn [parse_fuel]. fold (guard s). rewrite G. fold (unspace s). rewrite Us.
        rewrite T. change (negb (ch_open =? ch_open)) with false. cbn match. rewrite Ex. reflexivity.
    + left. exists (ParsingError UnexpectedCharacter). remember (S fuel) as k. cbn [parse_fuel]. fold (guard s). rewrite G. fold (unspace s). rewrite Us.
      rewrite T. apply N.eqb_neq in Hc. rewrite Hc. reflexivity.
  - pose proof (parse_integer (S fuel) P s (d :: ds) rest G U ltac:(discriminate) F Hr) as E.
    destruct (N.ltb_spec (decimal (d :: ds)) 4294967296) as [Hv|Hv].
    + right. left. exists (d :: ds), rest. split; [reflexivity|]. repeat (split; [assumption || discriminate|]). exact E.
    + left. eexists. exact E.
Qed.

Lemma plain_parts a b : Forall plain (a ++ b) -> Forall plain a /\ Forall plain b.
Proof. apply Forall_app. Qed.

Lemma guard_plain s : guard s = false -> Forall plain (unspace s).
Proof.
  intros G. unfold guard in G. apply orb_false_elim in G as [_ G]. apply unspace_is_plain. apply authorized_inv. exact G.
Qed.

Lemma parse_sound P : forall fuel s f, (length s < S fuel)%nat -> small_text s ->
  parse_fuel (S fuel) P s = Ok f -> expr (unspace s) f.
Proof.
  induction fuel as [|fuel IH]; intros s f Hl Hs E.
  - destruct s as [|c t]; [discriminate|cbn [length] in Hl; lia].
  - assert (IHp : forall e b, parse_fuel (S fuel) P e = Ok b -> (length e < length s)%nat -> Forall plain e -> expr e b).
    { intros e b He Hle Fe. rewrite <- (unspace_plain e Fe). apply IH; [lia|unfold small_text in *; lia|exact He]. }
    pose proof (unspace_length s) as UL.
    destruct (parse_cases fuel P s Hs) as [(e & E2)|[(ds & rest & G & U & Hne & F & Hv & E2)|(b & rest & G & U & E2)]]; rewrite E2 in E.
    + discriminate.
    + pose proof (guard_plain s G) as Fp. rewrite U in *. apply plain_parts in Fp as [_ Fr].
      rewrite app_length in UL. apply (after_sound (S fuel) P (Ok (Leaf (decimal ds)))); try assumption.
      * intros a Ea. apply Ok_inj in Ea. subst a. apply t_int; assumption.
      * intros e b He Hle Fe. apply IHp; [exact He| |exact Fe]. lia.
    + pose proof (guard_plain s G) as Fp. rewrite U in *. cbn [length] in UL. rewrite app_length in UL. cbn [length] in UL.
      inversion Fp as [|? ? _ Fp2]; subst. apply plain_parts in Fp2 as [Fb Fr]. inversion Fr as [|? ? _ Fr2]; subst.
      change (ch_open :: b ++ ch_close :: rest) with (codes "(" ++ b ++ codes ")" ++ rest).
      rewrite app_assoc, app_assoc. rewrite <- (app_assoc (codes "(")).
      apply (after_sound (S fuel) P (parse_fuel (S fuel) P b)); try assumption.
      * intros a Ea. apply t_paren. apply IHp; [exact Ea|lia|exact Fb].
      * intros e b' He Hle Fe. apply IHp; [exact He|lia|exact Fe].
Qed.

Lemma parse_fuel_no_panic P : forall fuel s, (length s < S fuel)%nat -> small_text s -> no_panic (parse_fuel (S fuel) P s).
Proof.
  induction fuel as [|fuel IH]; intros s Hl Hs.
  - destruct s as [|c t]; [apply no_panic_err|cbn [length] in Hl; lia].
  - assert (IHp : forall e, (length e < length s)%nat -> no_panic (parse_fuel (S fuel) P e)).
    { intros e Hle. apply IH; [lia|unfold small_text in *; lia]. }
    pose proof (unspace_length s) as UL.
    destruct (parse_cases fuel P s Hs) as [(e & E2)|[(ds & rest & G & U & Hne & F & Hv & E2)|(b & rest & G & U & E2)]]; rewrite E2.
    + apply no_panic_err.
    + rewrite U, app_length in UL. apply after_no_panic; [apply no_panic_ok|]. intros e He. apply IHp. lia.
    + rewrite U in UL. cbn [length] in UL. rewrite app_length in UL. cbn [length] in UL.
      apply after_no_panic; [apply IHp; lia|]. intros e He. apply IHp. lia.
Qed.

Lemma parse_iff P s f : small_text s -> (parse P s = Ok f <-> expr (unspace s) f).
Proof.
  intros Hs. unfold parse. split.
  - apply parse_sound; [lia|exact Hs].
  - intros He. assert (G : guard s = false).
    { unfold guard. pose proof (proj2 grammar_plain _ _ He) as Fp. pose proof (proj2 grammar_nonempty _ _ He) as Hne.
      destruct s as [|c t] eqn:Es; [contradiction|]. rewrite <- Es in *. rewrite Es at 1. cbn match. cbn [orb]. apply authorized_ok.
      apply Forall_forall. intros x Hx. destruct (N.eq_dec x ch_space) as [->|Hxs]; [reflexivity|].
      rewrite Forall_forall in Fp. destruct (Fp x) as [H _]; [|exact H]. apply filter_In. split; [rewrite ?Es; exact Hx|].
      apply N.eqb_neq in Hxs. rewrite Hxs. reflexivity. }
    apply (proj2 (parse_complete P) (unspace s) f He s (length s) G eq_refl Hs). apply unspace_length.
Qed.

(** ** Printing *)
Lemma size_nat_log2 n : n <> 0 -> N.size_nat n = S (N.to_nat (N.log2 n)).
Proof.
  intros H. destruct n as [|p]; [contradiction|]. cbn [N.size_nat]. clear H.
  assert (E : N.of_nat (Pos.size_nat p) = N.succ (N.log2 (N.pos p))).
  { induction p as [p IH|p IH|]; cbn [Pos.size_nat].
    - rewrite Nat2N.inj_succ, IH. f_equal. change (N.pos p~1) with (2 * N.pos p + 1). rewrite N.log2_succ_double by lia. reflexivity.
    - rewrite Nat2N.inj_succ, IH. f_equal. change (N.pos p~0) with (2 * N.pos p). rewrite N.log2_double by lia. reflexivity.
    - reflexivity. }
  lia.
Qed.

Lemma digits_fuel_spec fuel : forall n acc, (N.size_nat n < fuel)%nat \/ n = 0 /\ (0 < fuel)%nat ->
  exists ds, digits_fuel fuel n acc = ds ++ acc /\ ds <> [] /\ Forall digit ds /\ decimal ds = n.
Proof.
  induction fuel as [|fuel IH]; intros n acc Hn; [lia|]. cbn [digits_fuel].
  pose proof (N.mod_lt n 10 ltac:(lia)) as Hm. pose proof (N.div_mod n 10 ltac:(lia)) as Hd.
  assert (D1 : digit (48 + n mod 10)) by (clear - Hm; unfold digit; set (m := n mod 10) in *; lia).
  destruct (N.eqb_spec (n / 10) 0) as [E|E].
  - exists [48 + n mod 10]. split; [reflexivity|]. split; [discriminate|]. split; [constructor; [exact D1|constructor]|].
    unfold decimal. cbn [fold_left]. lia.
  - destruct (IH (n / 10) ((48 + n mod 10) :: acc)) as (ds & E2 & Hne & F & V).
    { left. destruct Hn as [Hn|[-> _]]; [|rewrite N.div_0_l in E by lia; contradiction].
      assert (S1 : (S (N.size_nat (n / 10)) <= N.size_nat n)%nat); [|lia].
      assert (n <> 0) by (intros ->; rewrite N.div_0_l in E by lia; contradiction).
      rewrite !size_nat_log2 by assumption. apply le_n_S.
      assert (L : N.log2 (n / 10) < N.log2 n).
      { apply N.log2_lt_pow2; [lia|]. apply N.div_lt_upper_bound; [lia|]. pose proof (N.log2_spec n ltac:(lia)) as [_ Hl].
        rewrite N.pow_succ_r' in Hl. lia. }
      lia. }
    exists (ds ++ [48 + n mod 10]). split; [rewrite E2, <- app_assoc; reflexivity|].
    split; [intros Q; apply app_eq_nil in Q as [_ Q]; discriminate|]. split; [apply Forall_app; split; [exact F|constructor; [exact D1|constructor]]|].
    unfold decimal in *. rewrite fold_left_app. cbn [fold_left]. rewrite V. clear - Hd. set (q := n / 10) in *. set (m := n mod 10) in *. clearbody q m. lia.
Qed.

Lemma digits_spec n : digits n <> [] /\ Forall digit (digits n) /\ decimal (digits n) = n.
Proof.
  unfold digits. destruct (digits_fuel_spec (S (N.size_nat n)) n [] ltac:(left; lia)) as (ds & E & H).
  rewrite E, app_nil_r. exact H.
Qed.

Lemma print_term v : v < 4294967296 -> term (digits v) (Leaf v).
Proof.
  intros H. destruct (digits_spec v) as (Hne & F & V). rewrite <- V at 2. apply t_int; [exact Hne|exact F|rewrite V; exact H].
Qed.

Lemma print_expr f : Forall (fun v => v < 4294967296) (leaves f) -> expr (print f) f.
Proof.
  induction f as [a IHa b IHb|a IHa b IHb|v]; cbn [leaves print]; intros F.
  - apply Forall_app in F as [Fa Fb].
    replace (codes "(" ++ print a ++ codes ")&(" ++ print b ++ codes ")")
      with ((codes "(" ++ print a ++ codes ")") ++ codes "&" ++ (codes "(" ++ print b ++ codes ")"))
      by (rewrite <- !app_assoc; reflexivity).
    apply e_and; [apply t_paren; auto|]. apply e_term, t_paren; auto.
  - apply Forall_app in F as [Fa Fb].
    replace (codes "(" ++ print a ++ codes ")|(" ++ print b ++ codes ")")
      with ((codes "(" ++ print a ++ codes ")") ++ codes "|" ++ (codes "(" ++ print b ++ codes ")"))
      by (rewrite <- !app_assoc; reflexivity).
    apply e_or; [apply t_paren; auto|]. apply e_term, t_paren; auto.
  - inversion F; subst. apply e_term, print_term. assumption.
Qed.

Lemma print_short_expr f : Forall (fun v => v < 4294967296) (leaves f) -> expr (print_short f) f.
Proof.
  assert (L : forall a, Forall (fun v => v < 4294967296) (leaves a) -> expr (print_short a) a ->
    term (match a with Leaf _ => print_short a | _ => codes "(" ++ print_short a ++ codes ")" end) a).
  { intros a F E. destruct a as [x y|x y|v]; [apply t_paren; exact E|apply t_paren; exact E|].
    inversion F; subst. apply print_term. assumption. }
  induction f as [a IHa b IHb|a IHa b IHb|v]; cbn [leaves]; intros F.
  - apply Forall_app in F as [Fa Fb]. cbn [print_short]. apply e_and; [|apply IHb; exact Fb]. apply L; [exact Fa|apply IHa; exact Fa].
  - apply Forall_app in F as [Fa Fb]. cbn [print_short]. apply e_or; [|apply IHb; exact Fb]. apply L; [exact Fa|apply IHa; exact Fa].
  - inversion F; subst. apply e_term, print_term. assumption.
Qed.
